(** Property C70: EnumArray. *)
From Verif Require Import Base CInt MathProofs EnumArrayModel.
Open Scope Z_scope.

(** An enumeration of underlying type [u] with the enumerators 0 .. n-1; an array of n elements must fit in the address space. *)
Definition enumeration (u : ity) (n : nat) : Prop := In u int_types /\ Z.of_nat n - 1 <= tmax u /\ Z.of_nat n <= tmax i64.

Lemma key_cast u n i : enumeration u n -> (i < n)%nat -> cast u (Z.of_nat i) = Z.of_nat i.
Proof.
  intros (H & M & B) I. assert (W : 0 < wid u /\ tmin u <= 0) by (cbn in H; decompose [or] H; subst; try contradiction; split; cbn; lia).
  apply cast_id; [tauto|]. unfold in_range. lia.
Qed.
Lemma index_cast i : Z.of_nat i <= tmax i64 -> cast u64 (Z.of_nat i) = Z.of_nat i /\ cast i64 (Z.of_nat i) = Z.of_nat i.
Proof. intros H. cbn in H. split; apply cast_id; unfold in_range; cbn; lia. Qed.
Lemma entry {V} u (a : list V) i : enumeration u (length a) -> (i < length a)%nat -> at_entry a (Z.of_nat i) = Done i.
Proof.
  intros E I. destruct E as (_ & _ & B). unfold at_entry. rewrite (proj1 (index_cast i ltac:(lia))), Nat2Z.id.
  rewrite (proj2 (Nat.ltb_lt _ _) I). reflexivity.
Qed.
Lemma arith_i64 z : tmin i64 <= z <= tmax i64 -> arith i64 z = Done z.
Proof.
  intros H. unfold arith. change (promote i64) with i64. change (sgn i64) with true. cbv iota.
  assert (E : in_range i64 z = true) by (unfold in_range; lia). now rewrite E.
Qed.

(** *** C70 *)
(** The number of elements is the number of enumerators. *)
Theorem C70_count : forall u m, In u int_types -> 0 <= m <= tmax u -> m < tmax u64 -> count_of_max u m = Done (m + 1) /\ forall c, 0 <= c <= tmax u -> count_of_count u c = c.
Proof.
  intros u m H M L. assert (T : tmax u <= tmax u64) by (cbn in H; decompose [or] H; subst; try contradiction; cbn; lia).
  assert (C : forall c, 0 <= c <= tmax u64 -> cast u64 c = c) by (intros c Hc; apply cast_id; unfold in_range; cbn in *; lia).
  split; [|intros c Hc; apply C; lia]. unfold count_of_max, arith. rewrite (C m) by lia. change (promote u64) with u64. cbn [sgn u64]. cbn [bind]. now rewrite C by lia.
Qed.
Print Assumptions C70_count.
(** array[e] is the element number e. *)
Theorem C70_subscript : forall (V : Type) u (a : list V) i, enumeration u (length a) -> (i < length a)%nat -> at_entry a (Z.of_nat i) = Done i.
Proof. exact @entry. Qed.
Print Assumptions C70_subscript.
(** A value that is no enumerator, negative ones included, is outside of the array. *)
Theorem C70_outside : forall (V : Type) (a : list V) e, - 2 ^ 63 <= e < 2 ^ 64 -> Z.of_nat (length a) <= 2 ^ 63 -> (e < 0 \/ Z.of_nat (length a) <= e) -> at_entry a e = Fault FUB.
Proof.
  intros V a e R L O. unfold at_entry. assert (C : Z.of_nat (length a) <= cast u64 e).
  { unfold cast. cbn [sgn u64 wid]. destruct O as [O|O]; [|rewrite Z.mod_small; lia].
    replace (e mod 2 ^ 64) with (e + 2 ^ 64); [lia|]. apply Z.mod_unique with (-1); lia. }
  replace (Nat.ltb (Z.to_nat (cast u64 e)) (length a)) with false by (symmetry; apply Nat.ltb_ge; lia). reflexivity.
Qed.
Print Assumptions C70_outside.
(** The loop over iter_kv() runs its body for each enumerator once, in increasing order, with the key and the element of that key, whatever
    the body does to the array elements (and anything else). *)
Theorem C70_iteration : forall (V S : Type) u this (array : S -> list V) (body : Z -> nat -> S -> outcome S) n s,
  enumeration u n -> length (array s) = n -> (forall k p s s', body k p s = Done s' -> length (array s') = length (array s)) ->
  iterate u this array body n s = foreach (seq 0 n) (fun s i => body (Z.of_nat i) i s) s.
Proof.
  intros V S u this array body n s E L B. unfold iterate, kv_begin, kv_end. rewrite L, (proj2 (index_cast n ltac:(destruct E; lia))).
  assert (G : forall m i s, (i + m = n)%nat -> length (array s) = n ->
    kv_loop u array body m (mkIt this (Z.of_nat i)) (mkIt this (Z.of_nat n)) s = foreach (seq i m) (fun s i => body (Z.of_nat i) i s) s).
  { clear s L. induction m as [|m IH]; intros i s I L; cbn [kv_loop seq foreach]; unfold it_ne, compare; cbn [m_array m_index]; rewrite Nat.eqb_refl; cbn [assert bind].
    - replace i with n by lia. rewrite Z.eqb_refl. reflexivity.
    - destruct (Z.eqb_spec (Z.of_nat i) (Z.of_nat n)); [lia|]. cbn [negb]. unfold deref. cbn [m_index]. rewrite (key_cast u n i E ltac:(lia)).
      rewrite <- L in E. rewrite (entry u _ i E) by lia. cbn [bind]. destruct (body (Z.of_nat i) i s) as [s'|] eqn:Y; cbn [bind]; [|reflexivity].
      unfold pre_incr, advance. cbn [m_array m_index]. rewrite arith_i64 by (destruct E as (_ & _ & E); rewrite L in E; cbn in *; lia). cbn [bind].
      replace (Z.of_nat i + 1) with (Z.of_nat (Datatypes.S i)) by lia. rewrite L in E. apply IH; [lia|]. rewrite (B _ _ _ _ Y). exact L. }
  change 0 with (Z.of_nat 0). apply G; [lia | exact L].
Qed.
Print Assumptions C70_iteration.
(** In particular: what a loop reads, *)
Theorem C70_read : forall (V : Type) u this (a : list V) d, enumeration u (length a) ->
  iterate u this fst (fun k p s => v <- vget (fst s) p ;; Done (fst s, snd s ++ [(k, v)])) (length a) (a, []) = Done (a, map (fun i => (Z.of_nat i, nth i a d)) (seq 0 (length a))).
Proof.
  intros V u this a d E. rewrite C70_iteration; [|exact E|reflexivity|].
  2: { intros k p s s' H. apply bind_done in H as (v & _ & H). injection H as <-. reflexivity. }
  destruct (foreach_inv (fun i s => s = (a, map (fun i => (Z.of_nat i, nth i a d)) (seq 0 i)))
    (fun (s : list V * list (Z * V)) i => v <- vget (fst s) i ;; Done (fst s, snd s ++ [(Z.of_nat i, v)])) (seq 0 (length a)) (a, [])) as (s' & F & ->).
  - reflexivity.
  - intros k s K ->. rewrite seq_length in K. rewrite seq_nth by exact K. cbn [fst snd Nat.add]. rewrite (vget_done a k d K). cbn [bind]. eexists. split; [reflexivity|].
    rewrite Nat.add_1_r, seq_S, map_app. reflexivity.
  - rewrite seq_length in F. exact F.
Qed.
Print Assumptions C70_read.
(** and what a loop writes: the element of key k becomes [f k] of it. *)
Theorem C70_write : forall (V : Type) u this (a : list V) (f : Z -> V -> V) d, enumeration u (length a) ->
  iterate u this (fun a => a) (fun k p a => v <- vget a p ;; vset a p (f k v)) (length a) a = Done (map (fun i => f (Z.of_nat i) (nth i a d)) (seq 0 (length a))).
Proof.
  intros V u this a f d E. rewrite C70_iteration; [|exact E|reflexivity|].
  2: { intros k p s s' H. apply bind_done in H as (v & _ & H). unfold vset in H. destruct (Nat.ltb p (length s)); [|discriminate]. injection H as <-. apply upd_length. }
  destruct (foreach_inv (fun i s => s = map (fun i => f (Z.of_nat i) (nth i a d)) (seq 0 i) ++ skipn i a)
    (fun (s : list V) i => v <- vget s i ;; vset s i (f (Z.of_nat i) v)) (seq 0 (length a)) a) as (s' & F & G).
  - reflexivity.
  - intros k s K ->. rewrite seq_length in K. rewrite seq_nth by exact K. cbn [Nat.add].
    set (l := map _ (seq 0 k)). assert (L : length l = k) by (unfold l; now rewrite map_length, seq_length).
    assert (X : (k < length (l ++ skipn k a))%nat) by (rewrite app_length, skipn_length; lia).
    rewrite (vget_done _ k d X). cbn [bind]. rewrite vset_done by exact X. eexists. split; [reflexivity|].
    rewrite app_nth2 by lia. rewrite L, Nat.sub_diag, nth_skipn, Nat.add_0_r.
    rewrite upd_app. destruct (Nat.ltb_spec k (length l)); [lia|]. rewrite L, Nat.sub_diag, Nat.add_1_r, seq_S, map_app. fold l. rewrite <- app_assoc. f_equal. cbn [map Nat.add app].
    assert (SK : skipn k a = nth k a d :: skipn (S k) a).
    { clear -K. revert k K. induction a as [|x a IH]; intros [|k] K; simpl in *; try lia; [reflexivity|]. apply IH. lia. }
    rewrite SK. reflexivity.
  - rewrite seq_length in G. rewrite F, G, skipn_all, app_nil_r. reflexivity.
Qed.
Print Assumptions C70_write.
(** Random access: it[n], +=, -=, ++, -- and the comparisons agree with the index. *)
Theorem C70_random_access : forall (V : Type) u (a : list V) this i j n, enumeration u (length a) -> (i <= length a)%nat -> (j <= length a)%nat -> n = Z.of_nat j - Z.of_nat i ->
  add_assign (mkIt this (Z.of_nat i)) n = Done (mkIt this (Z.of_nat j)) /\ sub_assign (mkIt this (Z.of_nat i)) (- n) = Done (mkIt this (Z.of_nat j)) /\
  ((j < length a)%nat -> subscript u a (mkIt this (Z.of_nat i)) n = Done (Z.of_nat j, j) /\ deref u a (mkIt this (Z.of_nat j)) = Done (Z.of_nat j, j)) /\
  (j = S i -> pre_incr (mkIt this (Z.of_nat i)) = Done (mkIt this (Z.of_nat j)) /\ post_incr (mkIt this (Z.of_nat i)) = Done (mkIt this (Z.of_nat i), mkIt this (Z.of_nat j))) /\
  (i = S j -> pre_decr (mkIt this (Z.of_nat i)) = Done (mkIt this (Z.of_nat j)) /\ post_decr (mkIt this (Z.of_nat i)) = Done (mkIt this (Z.of_nat i), mkIt this (Z.of_nat j))) /\
  let x := mkIt this (Z.of_nat i) in let y := mkIt this (Z.of_nat j) in
  it_eq x y = Done (Nat.eqb i j) /\ it_ne x y = Done (negb (Nat.eqb i j)) /\ it_lt x y = Done (Nat.ltb i j) /\ it_le x y = Done (Nat.leb i j) /\ it_gt x y = Done (Nat.ltb j i) /\ it_ge x y = Done (Nat.leb j i).
Proof.
  intros V u a this i j n E I J ->. pose proof E as (_ & _ & B). cbn in B.
  assert (K : forall z, z = Z.of_nat j -> arith i64 z = Done (Z.of_nat j)) by (intros z ->; apply arith_i64; cbn; lia).
  unfold pre_incr, pre_decr, post_incr, post_decr, pre_incr, pre_decr, add_assign, sub_assign, subscript, deref, advance. cbn [m_array m_index].
  split; [rewrite K by lia; reflexivity|]. split; [rewrite K by lia; reflexivity|]. split.
  { intros L. rewrite K by lia. cbn [bind]. rewrite (key_cast u (length a) j E L), (entry u a j E L). split; reflexivity. }
  split; [intros H; rewrite K by lia; split; reflexivity|]. split; [intros H; rewrite K by lia; split; reflexivity|].
  cbv zeta. unfold it_eq, it_ne, it_lt, it_le, it_gt, it_ge, compare. cbn [m_array m_index]. rewrite Nat.eqb_refl. cbn [assert bind].
  repeat split; f_equal; lia.
Qed.
Print Assumptions C70_random_access.
Example C70_nonvacuous : enumeration u8 256 /\ enumeration i8 128 /\ iterate i8 0 (fun a => a) (fun k p a => v <- vget a p ;; vset a p (v + 10 * k)) 3 [1; 2; 3] = Done [1; 12; 23].
Proof. repeat split; cbn; try tauto; lia. Qed.
(** An enumeration whose enumerators do not fit is excluded by the language: with 129 elements and a signed char the iteration leaves the array. *)
Example C70_nonvacuous_hypothesis : iterate i8 0 (fun a => a) (fun k p a => Done a) 129 (repeat 0 129) = Fault FUB.
Proof. reflexivity. Qed.
