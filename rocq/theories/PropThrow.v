(** Properties C81 to C84: what an exception thrown by T leaves behind in FixedVector, HybridVector and StackVector. *)
From Verif Require Import CellModel CellProofs ThrowModel ThrowProofs.

(** A vector whose elements are [l] ([None]: an element with an unspecified value): the first cells are alive, the others are not. *)
Definition holds {A} (s : tst A) (l : list (option A)) : Prop := t_size s = length l /\ exists n, t_cells s = map Obj l ++ repeat Raw n.
(** Every object of the storage is destroyed exactly once. *)
Definition destroyed {A} (s : tst A) : Prop := t_final s = Done (repeat Raw (length (t_cells s))).
(** Objects that nobody will destroy, the destructor having run. *)
Definition leaked {A} (m : list (cell A)) : nat := length (filter (fun c => match c with Obj _ => true | Raw => false end) m).

Lemma skipn_add {B} (l : list B) n : forall k, skipn (n + k) l = skipn k (skipn n l).
Proof. revert n. induction l as [|x l IH]; intros [|n] k; cbn [skipn Nat.add]; try reflexivity; [now rewrite skipn_nil|]. apply IH. Qed.

Section Facts.
Context {A : Type}.
Implicit Types s : tst A.

Lemma holds_live s l : holds s l -> exists n, live (t_cells s) = repeat true (t_size s) ++ repeat false n /\ length (t_cells s) = t_size s + n.
Proof.
  intros (E & n & C). exists n. rewrite C, E. unfold live. rewrite map_app. split; [f_equal; [apply live_obj|apply live_repeat]|].
  now rewrite app_length, map_length, repeat_length.
Qed.
Lemma live_holds s n : live (t_cells s) = repeat true (t_size s) ++ repeat false n -> exists l, holds s l.
Proof.
  intros E. destruct (live_split _ _ _ E) as (q & m & C & L & R). apply live_raw in R. subst m. exists q. split; [congruence|]. now exists n.
Qed.
Lemma holds_destroyed s l : holds s l -> destroyed s.
Proof.
  intros H. destruct (holds_live s l H) as (n & E & L). destruct (final_good _ _ _ E) as (m' & D & F). unfold destroyed, t_final. rewrite D. f_equal.
  rewrite <- repeat_app in F. apply live_raw in F. now rewrite L.
Qed.
Lemma nth_true n m i : i < n -> nth_error (repeat true n ++ m) i = Some true.
Proof. intros H. rewrite nth_error_app1 by (rewrite repeat_length; lia). now apply nth_error_repeat. Qed.
Lemma leaked_app (l m : list (cell A)) : leaked (l ++ m) = leaked l + leaked m.
Proof. unfold leaked. now rewrite filter_app, app_length. Qed.
Lemma leaked_raw n : leaked (@repeat (cell A) Raw n) = 0.
Proof. unfold leaked. induction n; auto. Qed.
Lemma leaked_obj (l : list (option A)) : leaked (map Obj l) = length l.
Proof. unfold leaked. induction l; cbn; auto. Qed.

Lemma pop_holds s l x : holds s (l ++ [x]) -> exists s', t_pop s = Val tt s' /\ holds s' l /\ length (t_cells s') = length (t_cells s) /\ t_left s' = t_left s.
Proof.
  intros (E & n & C). destruct s as [m sz k]. cbn [t_cells t_size t_left] in *. subst m sz. unfold t_pop, t_destroy, tpure. cbn [t_size t_cells t_left set_size].
  rewrite !app_length. cbn [length]. replace (length l + 1 =? 0) with false by lia. cbn [negb tassert].
  rewrite map_app, <- app_assoc. cbn [map app]. rewrite destroy_mid by (rewrite map_length; lia).
  eexists. split; [reflexivity|]. split; [|cbn [t_cells t_left]; split; [rewrite !app_length; cbn [length]; lia|reflexivity]]. split; [cbn [t_size]; lia|]. now exists (S n).
Qed.

Lemma shrink_holds s l n a : holds s l -> n <= length l ->
  exists s', t_resize n a s = Val tt s' /\ holds s' (firstn n l) /\ length (t_cells s') = length (t_cells s) /\ t_left s' = t_left s.
Proof.
  intros (E & r & C) H. destruct s as [m sz k]. cbn [t_cells t_size t_left] in *. subst m sz. unfold t_resize. cbn [t_size t_cells t_left].
  rewrite app_length, map_length. replace (n <=? length l + length (repeat Raw r)) with true by lia. cbn [tassert].
  replace (length l <? n) with false by lia. destruct (n <? length l) eqn:F.
  - rewrite destroy_loop. cbn [t_cells t_size t_left]. fold (destroy_range (map Obj l ++ repeat Raw r) n (length l)).
    assert (destroy_range (map Obj l ++ repeat Raw r) n (length l) = Done (map Obj (firstn n l) ++ repeat Raw (length l - n) ++ repeat Raw r)) as ->.
    { rewrite <- (firstn_skipn n l) at 1. rewrite map_app, <- app_assoc, <- (skipn_length n l). apply destroy_range_spec;
      rewrite map_length, firstn_length_le by lia; [reflexivity|rewrite skipn_length; lia]. }
    cbn [tbind]. eexists. split; [reflexivity|]. unfold set_size. cbn [t_cells t_size t_left]. split; [split|split].
    + cbn [t_size]. rewrite firstn_length_le; lia.
    + cbn [t_cells]. exists (length l - n + r). now rewrite repeat_app.
    + rewrite !app_length, !map_length, !repeat_length, firstn_length_le; lia.
    + reflexivity.
  - assert (n = length l) by lia. subst n. eexists. split; [reflexivity|]. rewrite firstn_all. cbn [t_cells]. split; [|split; [now rewrite !app_length, map_length|reflexivity]].
    split; [reflexivity|]. now exists r.
Qed.
End Facts.

(** *** C81 Operations that only remove elements *)
(** pop_back and a resize that does not grow (so also clear) never throw and keep the rest, whatever T does. *)
Theorem C81_removal_never_throws : forall (A : Type) (s : tst A) l x n a, 
  (holds s (l ++ [x]) -> exists s', t_pop s = Val tt s' /\ holds s' l /\ destroyed s') /\
  (holds s l -> n <= length l -> exists s', t_resize n a s = Val tt s' /\ holds s' (firstn n l) /\ destroyed s').
Proof.
  intros A s l x n a. split.
  - intros H. destruct (pop_holds s l x H) as (s' & E & H' & _). eauto using holds_destroyed.
  - intros H L. destruct (shrink_holds s l n a H L) as (s' & E & H' & _). eauto using holds_destroyed.
Qed.
Print Assumptions C81_removal_never_throws.

(** erase: the element goes away, or a move assignment threw and the vector still has all its elements, all alive. *)
Theorem C81_erase_keeps_the_vector_sound : forall (A : Type) (nm : bool) (s : tst A) l pos, holds s l -> pos < length l ->
  match t_erase nm pos s with
  | Val i s' => i = pos /\ holds s' (firstn pos l ++ skipn (pos + 1) l) /\ destroyed s'
  | Thrown s' => nm = false /\ (exists l', holds s' l' /\ length l' = length l) /\ destroyed s'
  | Bad _ => False
  end.
Proof.
  intros A nm s l pos H HP. unfold t_erase. pose proof H as (E & n & C). replace (pos <? t_size s) with true by lia. cbn [tassert].
  destruct (holds_live s l H) as (n0 & L & _).
  pose proof (loop_live nm (fun k => pos + 1 + k) (fun k => pos + k) (seq 0 (t_size s - (pos + 1))) s) as Lv.
  assert (P : forall k, In k (seq 0 (t_size s - (pos + 1))) -> nth_error (live (t_cells s)) (pos + 1 + k) = Some true /\ nth_error (live (t_cells s)) (pos + k) = Some true).
  { intros k Hk. apply in_seq in Hk. rewrite L. split; apply nth_true; lia. }
  specialize (Lv P). destruct (tloop _ _ s) as [b s1|s1|] eqn:TL; cbn [tbind]; [| |exact Lv].
  - apply loop_val in TL. destruct Lv as (_ & Sz & _).
    destruct (move_forward_spec (skipn (pos + 1) l) (map Obj (firstn pos l)) [nth pos l None] (repeat Raw n) (pos + 1) pos) as (g' & Lg & MF);
      [discriminate|rewrite map_length, firstn_length_le; lia|rewrite map_length, firstn_length_le by lia; cbn [length]; lia|].
    assert (SP : t_cells s = map Obj (firstn pos l) ++ map Obj [nth pos l None] ++ map Obj (skipn (pos + 1) l) ++ repeat Raw n).
    { rewrite C. rewrite !app_assoc, <- !map_app. f_equal. f_equal. rewrite <- app_assoc. rewrite <- (firstn_skipn pos l) at 1. f_equal.
      clear -HP. revert pos HP. induction l as [|y l IH]; intros [|pos] HP; cbn in *; try lia; [reflexivity|]. apply IH. lia. }
    unfold move_forward in MF. rewrite skipn_length, <- SP, <- E in MF. rewrite MF in TL. injection TL as TL.
    destruct g' as [|g [|g2 g']]; try discriminate.
    assert (H1 : holds s1 ((firstn pos l ++ skipn (pos + 1) l) ++ [g])).
    { split; [rewrite Sz, E, !app_length, firstn_length_le, skipn_length by lia; cbn [length]; lia|]. exists n. rewrite <- TL. now rewrite !map_app, <- !app_assoc. }
    destruct (pop_holds s1 _ _ H1) as (s2 & -> & H2 & _). cbn [tbind]. eauto using holds_destroyed.
  - destruct Lv as (Hn & _ & _ & Lv & Sz). split; [exact Hn|]. rewrite <- Sz in L. rewrite <- Lv in L. destruct (live_holds s1 n0 L) as (l' & H').
    split; [|eauto using holds_destroyed]. exists l'. split; [exact H'|]. destruct H' as (E' & _). congruence.
Qed.
Print Assumptions C81_erase_keeps_the_vector_sound.

Theorem C81_erase_range_keeps_the_vector_sound : forall (A : Type) (nm : bool) (dflt : A) (s : tst A) l first last, holds s l -> first <= last <= length l ->
  match t_erase_range nm dflt first last s with
  | Val i s' => i = first /\ holds s' (firstn first l ++ skipn last l) /\ destroyed s'
  | Thrown s' => nm = false /\ (exists l', holds s' l' /\ length l' = length l) /\ destroyed s'
  | Bad _ => False
  end.
Proof.
  intros A nm dflt s l first last H HP. unfold t_erase_range. destruct (first =? last) eqn:EQ.
  - assert (first = last) by lia. subst last. rewrite firstn_skipn. eauto using holds_destroyed.
  - pose proof H as (E & n & C). replace (first <? last) with true by lia. replace (last <=? t_size s) with true by lia. cbn [tassert].
    replace (first + (last - first)) with last by lia. destruct (holds_live s l H) as (n0 & L & _).
    pose proof (loop_live nm (fun k => last + k) (fun k => first + k) (seq 0 (t_size s - last)) s) as Lv.
    assert (P : forall k, In k (seq 0 (t_size s - last)) -> nth_error (live (t_cells s)) (last + k) = Some true /\ nth_error (live (t_cells s)) (first + k) = Some true).
    { intros k Hk. apply in_seq in Hk. rewrite L. split; apply nth_true; lia. }
    specialize (Lv P). destruct (tloop _ _ s) as [b s1|s1|] eqn:TL; cbn [tbind]; [| |exact Lv].
    + apply loop_val in TL. destruct Lv as (_ & Sz & _). set (mid := firstn (last - first) (skipn first l)).
      assert (Lm : length mid = last - first) by (unfold mid; rewrite firstn_length_le; [reflexivity|rewrite skipn_length; lia]).
      destruct (move_forward_spec (skipn last l) (map Obj (firstn first l)) mid (repeat Raw n) last first) as (g' & Lg & MF);
        [intros ->; cbn in Lm; lia|rewrite map_length, firstn_length_le; lia|rewrite map_length, firstn_length_le by lia; lia|].
      assert (SP : t_cells s = map Obj (firstn first l) ++ map Obj mid ++ map Obj (skipn last l) ++ repeat Raw n).
      { rewrite C. rewrite !app_assoc, <- !map_app. f_equal. f_equal. rewrite <- app_assoc. rewrite <- (firstn_skipn first l) at 1. f_equal.
        unfold mid. rewrite <- (firstn_skipn (last - first) (skipn first l)) at 1. f_equal. replace last with (first + (last - first)) at 2 by lia. symmetry. apply skipn_add. }
      unfold move_forward in MF. rewrite skipn_length, <- SP, <- E in MF. rewrite MF in TL. injection TL as TL.
      assert (H1 : holds s1 ((firstn first l ++ skipn last l) ++ g')).
      { split; [rewrite Sz, E, !app_length, firstn_length_le, skipn_length by lia; lia|]. exists n. rewrite <- TL. now rewrite !map_app, <- !app_assoc. }
      destruct (shrink_holds s1 _ (t_size s1 - (last - first)) dflt H1) as (s2 & -> & H2 & _);
        [rewrite Sz, E, !app_length, firstn_length_le, skipn_length by lia; lia|]. cbn [tbind].
      replace (t_size s1 - (last - first)) with (length (firstn first l ++ skipn last l)) in H2
        by (rewrite Sz, E, !app_length, firstn_length_le, skipn_length by lia; lia).
      rewrite firstn_app, Nat.sub_diag, firstn_all, app_nil_r in H2. eauto using holds_destroyed.
    + destruct Lv as (Hn & _ & _ & Lv & Sz). split; [exact Hn|]. rewrite <- Sz in L. rewrite <- Lv in L. destruct (live_holds s1 n0 L) as (l' & H').
      split; [|eauto using holds_destroyed]. exists l'. split; [exact H'|]. destruct H' as (E' & _). congruence.
Qed.
Print Assumptions C81_erase_range_keeps_the_vector_sound.

Example C81_erase_returns : t_erase false 0 (TS [Obj (Some 1); Obj (Some 2); Raw] 2 5) = Val 0 (TS [Obj (Some 2); Raw; Raw] 1 4).
Proof. reflexivity. Qed.
Example C81_erase_throws : t_erase false 0 (TS [Obj (Some 1); Obj (Some 2); Obj (Some 3)] 3 1) = Thrown (TS [Obj (Some 2); Obj None; Obj None] 3 0).
Proof. reflexivity. Qed.

(** Calls outside of the bounds are stopped before anything is done. *)
Theorem C81_bounds : forall (A : Type) (nm : bool) (a : A) (s : tst A) l, holds s l ->
  (l = [] -> t_pop s = Bad FAssert) /\
  (forall pos, length l <= pos -> t_erase nm pos s = Bad FAssert) /\
  (forall first last, first <> last -> last < first \/ length l < last -> t_erase_range nm a first last s = Bad FAssert) /\
  (forall n, length (t_cells s) < n -> t_resize n a s = Bad FAssert) /\
  (forall pos, length l < pos \/ length l = length (t_cells s) -> t_emplace nm pos a s = Bad FAssert) /\
  (length l = length (t_cells s) -> t_push a s = Bad FAssert).
Proof.
  intros A nm a s l (E & _). unfold t_pop, t_erase, t_erase_range, t_resize, t_emplace, t_push. rewrite E. repeat split.
  - intros ->. reflexivity.
  - intros pos H. now rewrite (proj2 (Nat.ltb_ge _ _) H).
  - intros x y N H. rewrite (proj2 (Nat.eqb_neq _ _) N). destruct (Nat.ltb_spec x y); [|reflexivity]. destruct (Nat.leb_spec y (length l)); [lia|reflexivity].
  - intros n H. now rewrite (proj2 (Nat.leb_gt _ _) H).
  - intros pos H. destruct (Nat.leb_spec pos (length l)); [|reflexivity]. destruct (Nat.ltb_spec (length l) (length (t_cells s))); [lia|reflexivity].
  - intros H. destruct (Nat.ltb_spec (length l) (length (t_cells s))); [lia|reflexivity].
Qed.
Print Assumptions C81_bounds.

(** *** C82 Operations that insert one element *)
(** If the constructor of the new element throws, m_size already counts it: the destructor of the vector then destroys an object that does not exist. *)
Theorem C82_push_back_throws_refuted : forall (A : Type) (a : A) (s : tst A) l, holds s l -> length l < length (t_cells s) -> t_left s = 0 ->
  exists s', t_push a s = Thrown s' /\ t_size s' = length l + 1 /\ t_final s' = Fault FUB.
Proof.
  intros A a s l (E & n & C) HL Z. destruct s as [m sz k]. cbn [t_cells t_size t_left] in *. subst. destruct n as [|n]; [rewrite app_nil_r, map_length in HL; lia|].
  unfold t_push. cbn [t_cells t_size]. rewrite (proj2 (Nat.ltb_lt _ _) HL). cbn [tassert]. unfold t_construct. cbn [t_cells t_size t_left set_size repeat].
  rewrite construct_mid by (now rewrite map_length). eexists. split; [reflexivity|]. split; [reflexivity|]. unfold t_final. cbn [t_cells t_size].
  unfold set_size. cbn [t_cells t_size].
  apply (destroy_range_bad _ 0 _ (length l)); [lia|]. unfold live. rewrite map_app, nth_error_app2 by (rewrite !map_length; lia). rewrite !map_length, Nat.sub_diag. reflexivity.
Qed.
Print Assumptions C82_push_back_throws_refuted.
(** If it does not throw, the element is there. *)
Theorem C82_push_back_returns : forall (A : Type) (a : A) (s : tst A) l, holds s l -> length l < length (t_cells s) -> t_left s <> 0 ->
  exists s', t_push a s = Val tt s' /\ holds s' (l ++ [Some a]) /\ destroyed s'.
Proof.
  intros A a s l (E & n & C) HL Z. destruct s as [m sz k]. cbn [t_cells t_size t_left] in *. subst. destruct n as [|n]; [rewrite app_nil_r, map_length in HL; lia|].
  destruct k as [|k]; [contradiction|]. unfold t_push. cbn [t_cells t_size]. rewrite (proj2 (Nat.ltb_lt _ _) HL). cbn [tassert]. unfold t_construct. cbn [t_cells t_size t_left set_size repeat].
  rewrite construct_mid by (now rewrite map_length).
  assert (HH : holds (TS (map Obj l ++ Obj (Some a) :: repeat Raw n) (length l + 1) k) (l ++ [Some a])).
  { split; [now rewrite app_length|]. exists n. now rewrite map_app, <- app_assoc. }
  eexists. split; [reflexivity|]. split; [exact HH|]. eauto using holds_destroyed.
Qed.
Print Assumptions C82_push_back_returns.

Lemma emplace_states : forall (A : Type) (nm : bool) (a : A) (s : tst A) l pos, holds s l -> pos < length l -> length l < length (t_cells s) ->
  let moves := if nm then 0 else length l - pos in
  match t_emplace nm pos a s with
  | Bad _ => False
  | Val i s' => i = pos /\ moves < t_left s /\ holds s' (firstn pos l ++ Some a :: skipn pos l)
  | Thrown s' =>
    (t_left s = 0 /\ moves <> 0 /\ exists l', holds s' l' /\ length l' = length l) \/
    (0 < t_left s < moves /\ t_size s' = length l /\ exists n, live (t_cells s') = repeat true (length l + 1) ++ repeat false n) \/
    (t_left s = moves /\ t_size s' = length l + 1 /\ nth_error (live (t_cells s')) pos = Some false)
  end.
Proof.
  intros A nm a s l pos H HP HL moves. pose proof H as (E & n & C). destruct n as [|n]; [rewrite C, app_nil_r, map_length in HL; lia|].
  unfold t_emplace. replace (pos <=? t_size s) with true by lia. replace (t_size s <? length (t_cells s)) with true by lia. replace (pos <? t_size s) with true by lia. cbn [tassert].
  destruct (holds_live s l H) as (n0 & L & LL). assert (n0 = S n) by (rewrite C, app_length, map_length in LL; cbn [length repeat] in LL; rewrite repeat_length in LL; lia). subst n0.
  destruct (exists_last (l := l)) as (i0 & x & SL); [intros ->; cbn in HP; lia|].
  assert (Li : length i0 = length l - 1) by (rewrite SL, app_length; cbn; lia).
  assert (MC : t_move_construct nm (t_size s - 1) (t_size s) s =
     if nm then Val tt (TS (map Obj i0 ++ Obj None :: Obj x :: repeat Raw n) (t_size s) (t_left s))
     else match t_left s with O => Thrown (TS (map Obj i0 ++ Obj None :: Raw :: repeat Raw n) (t_size s) 0)
          | S k => Val tt (TS (map Obj i0 ++ Obj None :: Obj x :: repeat Raw n) (t_size s) k) end).
  { unfold t_move_construct. rewrite C. rewrite SL at 1. rewrite map_app, <- app_assoc. cbn [map app repeat]. rewrite take_mid by (rewrite map_length; lia).
    assert (construct (map Obj i0 ++ Obj None :: Raw :: repeat Raw n) (t_size s) x = Done (map Obj i0 ++ Obj None :: Obj x :: repeat Raw n)) as ->; [|reflexivity].
    pose proof (construct_mid (map Obj i0 ++ [Obj None]) (repeat Raw n) x (t_size s)) as Q. rewrite <- !app_assoc in Q. cbn [app] in Q. apply Q.
    rewrite app_length, map_length. cbn [length]. lia. }
  rewrite MC. clear MC. set (M1 := map Obj i0 ++ Obj None :: Obj x :: repeat Raw n).
  (* the rest, once the last element has been moved *)
  assert (R : forall k, let s1 := TS M1 (t_size s) k in
    match tbind (tbind (if pos <? t_size s - 1 then tloop (rev (seq 0 (t_size s - 1 - pos))) (fun k => t_move_assign nm (pos + k) (pos + 1 + k)) s1 else Val tt s1) (fun _ s => t_destroy pos s))
      (fun _ s0 => tbind (t_construct pos a (set_size (t_size s + 1) s0)) (fun _ s => Val pos s)) with
    | Bad _ => False
    | Val i s' => i = pos /\ (if nm then 0 else length l - 1 - pos) < k /\ holds s' (firstn pos l ++ Some a :: skipn pos l)
    | Thrown s' => (k < (if nm then 0 else length l - 1 - pos) /\ t_size s' = length l /\ live (t_cells s') = repeat true (length l + 1) ++ repeat false n) \/
       (k = (if nm then 0 else length l - 1 - pos) /\ t_size s' = length l + 1 /\ nth_error (live (t_cells s')) pos = Some false)
    end).
  { intros k s1. set (q := skipn pos i0). assert (Lq : length q = t_size s - 1 - pos) by (unfold q; rewrite skipn_length; lia).
    assert (SM : M1 = map Obj (firstn pos l) ++ map Obj q ++ Obj None :: Obj x :: repeat Raw n).
    { unfold M1. rewrite app_assoc, <- map_app. f_equal. f_equal. rewrite SL at 1. rewrite firstn_app. replace (pos - length i0) with 0 by lia. cbn [firstn]. rewrite app_nil_r. unfold q. now rewrite firstn_skipn. }
    assert (LM : live M1 = repeat true (length l + 1) ++ repeat false n).
    { unfold M1, live. rewrite map_app. cbn [map alive]. change (map alive (map Obj i0)) with (live (map (@Obj A) i0)). change (map alive (repeat Raw n)) with (live (@repeat (cell A) Raw n)).
      rewrite live_obj, live_repeat, Li. replace (length l + 1) with ((length l - 1) + 2) by lia. rewrite repeat_app, <- app_assoc. reflexivity. }
    assert (BODY : match (if pos <? t_size s - 1 then tloop (rev (seq 0 (t_size s - 1 - pos))) (fun k => t_move_assign nm (pos + k) (pos + 1 + k)) s1 else Val tt s1) with
      | Val _ s2 => (exists y, t_cells s2 = map Obj (firstn pos l) ++ Obj y :: map Obj q ++ Obj x :: repeat Raw n) /\ t_size s2 = length l /\ k = (if nm then 0 else length l - 1 - pos) + t_left s2
      | Thrown s2 => k < (if nm then 0 else length l - 1 - pos) /\ t_size s2 = length l /\ live (t_cells s2) = repeat true (length l + 1) ++ repeat false n
      | Bad _ => False end).
    { destruct (pos <? t_size s - 1) eqn:F.
      - pose proof (loop_live nm (fun k => pos + k) (fun k => pos + 1 + k) (rev (seq 0 (t_size s - 1 - pos))) s1) as Lv.
        assert (P : forall k, In k (rev (seq 0 (t_size s - 1 - pos))) -> nth_error (live (t_cells s1)) (pos + k) = Some true /\ nth_error (live (t_cells s1)) (pos + 1 + k) = Some true).
        { intros k0 Hk. apply in_rev, in_seq in Hk. cbn [s1 t_cells]. rewrite LM. split; apply nth_true; lia. }
        specialize (Lv P). rewrite rev_length, seq_length in Lv. destruct (tloop _ _ s1) as [b s2|s2|] eqn:TL; [| |exact Lv].
        + apply loop_val in TL. destruct Lv as (_ & Sz & Lf). cbn [s1 t_cells t_size t_left] in *.
          destruct (move_backward_spec q (map Obj (firstn pos l)) None (Obj x :: repeat Raw n) pos (pos + 1)) as (y & MB);
            [rewrite map_length, firstn_length_le; lia|rewrite map_length, firstn_length_le; lia|].
          unfold move_backward in MB. rewrite <- SM, Lq, TL in MB. injection MB as MB. split; [now exists y|]. split; [congruence|]. rewrite Lf, E. reflexivity.
        + destruct Lv as (-> & Lf & _ & Lv & Sz). cbn [s1 t_cells t_size t_left] in *. rewrite Lv. split; [lia|]. split; [congruence|]. exact LM.
      - cbn [s1 t_cells t_size t_left]. assert (Z : length l - 1 - pos = 0) by lia. rewrite Z. split; [|split; [exact E|now destruct nm]]. exists None. rewrite SM. 
        assert (q = []) as -> by (apply length_zero_iff_nil; lia). reflexivity. }
    destruct (if pos <? t_size s - 1 then _ else _) as [b s2|s2|] eqn:EB; cbn [tbind]; [|left; exact BODY|exact BODY]. clear EB.
    destruct BODY as ((y & C2) & Sz2 & Lf2). unfold t_destroy at 1, tpure. rewrite C2, destroy_mid by (rewrite map_length, firstn_length_le; lia). cbn [tbind set_size t_cells t_size t_left].
    unfold t_construct, set_size. cbn [t_cells t_size t_left]. rewrite construct_mid by (rewrite map_length, firstn_length_le; lia).
    destruct (t_left s2) as [|k2]; cbn [tbind].
    - right. cbn [t_cells t_size]. split; [lia|]. split; [lia|]. unfold live. rewrite map_app, nth_error_app2; rewrite !map_length, firstn_length_le by lia; [|lia]. now rewrite Nat.sub_diag.
    - split; [reflexivity|]. split; [lia|]. split.
      + cbn [t_size]. rewrite app_length. cbn [length]. rewrite firstn_length_le, skipn_length by lia. lia.
      + cbn [t_cells]. exists n. rewrite map_app, <- app_assoc. cbn [map app]. f_equal. f_equal.
        rewrite SL. rewrite skipn_app. replace (pos - length i0) with 0 by lia. cbn [skipn]. fold q. rewrite map_app, <- app_assoc. reflexivity. }
  destruct nm.
  - specialize (R (t_left s)). cbv zeta in R. cbn [tbind]. subst moves. destruct (tbind _ _) as [i s'|s'|]; [|right; destruct R as [(R & _)|R]; [lia|right; exact R]|exact R].
    destruct R as (R1 & R2 & R3). auto.
  - destruct (t_left s) as [|k] eqn:Lf; cbn [tbind].
    + left. split; [reflexivity|]. split; [unfold moves; lia|]. exists (i0 ++ [None]). split; [|rewrite app_length; cbn [length]; lia].
      split; [cbn [t_size]; rewrite app_length; cbn [length]; lia|]. exists (S n). cbn [t_cells]. now rewrite map_app, <- app_assoc.
    + specialize (R k). cbv zeta in R. unfold moves. destruct (tbind _ _) as [i s'|s'|]; [|right|exact R].
      * destruct R as (R1 & R2 & R3). repeat split; try assumption; try lia; apply R3.
      * destruct R as [(R1 & R2 & R3)|(R1 & R2 & R3)]; [left|right]; (split; [lia|]); (split; [exact R2|]); [now exists n|exact R3].
Qed.

(** What emplace does before the end of the vector, for every place an exception can come from. The moves come first, the constructor last.
    If the first move throws the vector is sound. A later move throws: one object is never destroyed. The constructor throws: undefined at destruction. *)
Theorem C82_emplace_exactly : forall (A : Type) (nm : bool) (a : A) (s : tst A) l pos, holds s l -> pos < length l -> length l < length (t_cells s) ->
  let moves := if nm then 0 else length l - pos in
  (moves < t_left s -> exists s', t_emplace nm pos a s = Val pos s' /\ holds s' (firstn pos l ++ Some a :: skipn pos l) /\ destroyed s') /\
  (t_left s = moves -> exists s', t_emplace nm pos a s = Thrown s' /\ t_final s' = Fault FUB) /\
  (0 < t_left s < moves -> exists s' m, t_emplace nm pos a s = Thrown s' /\ t_final s' = Done m /\ leaked m = 1) /\
  (t_left s = 0 -> moves <> 0 -> exists s', t_emplace nm pos a s = Thrown s' /\ destroyed s').
Proof.
  intros A nm a s l pos H HP HL moves. pose proof (emplace_states A nm a s l pos H HP HL) as X. fold moves in X. cbv zeta in X.
  destruct (t_emplace nm pos a s) as [i s'|s'|]; [|split; [|split; [|split]]; [intros Q|intros Q|intros Q|intros Q Q2]|contradiction].
  - destruct X as (-> & X1 & X2). repeat split; intros Q; try lia. eauto using holds_destroyed.
  - destruct X as [(X1 & X2 & _)|[(X1 & _)|(X1 & _)]]; lia.
  - exists s'. split; [reflexivity|]. destruct X as [(X1 & X2 & _)|[(X1 & _)|(_ & X2 & X3)]]; [lia|lia|]. unfold t_final. apply (destroy_range_bad _ 0 _ pos); [lia|exact X3].
  - destruct X as [(X1 & X2 & _)|[(_ & X1 & n & X2)|(X2 & _)]]; [lia| |lia].
    replace (repeat true (length l + 1) ++ repeat false n) with (repeat true (t_size s') ++ true :: repeat false n) in X2 by (rewrite X1, repeat_app, <- app_assoc; reflexivity).
    destruct (final_good _ _ _ X2) as (m & D & F). exists s', m. split; [reflexivity|]. split; [exact D|].
    assert (LK : forall m : list (cell A), leaked m = length (filter (fun b : bool => b) (live m))).
    { clear. induction m as [|[|o] m IH]; [reflexivity|exact IH|]. unfold leaked, live in *. cbn [filter map alive length]. f_equal. exact IH. }
    rewrite LK, F, filter_app. cbn [filter]. rewrite app_length. cbn [length].
    assert (Z : forall k, length (filter (fun b : bool => b) (repeat false k)) = 0) by (clear; induction k; auto). rewrite !Z. reflexivity.
  - exists s'. split; [reflexivity|]. destruct X as [(_ & _ & l' & H' & _)|[(X1 & _)|(X1 & _)]]; [eauto using holds_destroyed|lia|lia].
Qed.
Print Assumptions C82_emplace_exactly.
(** So with moves that do not throw, the only exception is the constructor's, and it always ruins the vector. *)
Theorem C82_emplace_throws_refuted : forall (A : Type) (a : A) (s : tst A) l pos s', holds s l -> pos <= length l -> length l < length (t_cells s) ->
  t_emplace true pos a s = Thrown s' -> t_final s' = Fault FUB.
Proof.
  intros A a s l pos s' H HP HL E. destruct (Nat.eq_dec pos (length l)) as [->|].
  - destruct (t_left s) as [|k] eqn:Lf.
    + destruct (C82_push_back_throws_refuted A a s l H HL Lf) as (s2 & P & _ & F). unfold t_emplace in E. unfold t_push in P. pose proof H as (Sz & _).
      rewrite <- Sz in E. rewrite Nat.leb_refl, Nat.ltb_irrefl in E. destruct (t_size s <? length (t_cells s)); [|discriminate]. cbn [tassert tbind] in *. rewrite P in E. cbn [tbind] in E. congruence.
    + destruct (C82_push_back_returns A a s l H HL ltac:(lia)) as (s2 & P & _). unfold t_emplace in E. unfold t_push in P. pose proof H as (Sz & _).
      rewrite <- Sz in E. rewrite Nat.leb_refl, Nat.ltb_irrefl in E. destruct (t_size s <? length (t_cells s)); [|discriminate]. cbn [tassert tbind] in *. rewrite P in E. cbn [tbind] in E. congruence.
  - destruct (C82_emplace_exactly A true a s l pos H ltac:(lia) HL) as (X1 & X2 & _). destruct (t_left s) as [|k].
    + destruct (X2 eq_refl) as (s2 & E2 & F). congruence.
    + destruct (X1 ltac:(lia)) as (s2 & E2 & _). congruence.
Qed.
Print Assumptions C82_emplace_throws_refuted.
Example C82_push : t_push 7 (TS [Obj (Some 1); Raw] 1 0) = Thrown (TS [Obj (Some 1); Raw] 2 0).
Proof. reflexivity. Qed.
Example C82_emplace : t_emplace false 0 7 (TS [Obj (Some 1); Obj (Some 2); Raw] 2 9) = Val 0 (TS [Obj (Some 7); Obj (Some 1); Obj (Some 2)] 3 6).
Proof. reflexivity. Qed.
Example C82_emplace_leaks : t_emplace false 0 7 (TS [Obj (Some 1); Obj (Some 2); Raw] 2 1) = Thrown (TS [Obj None; Obj None; Obj (Some 2)] 2 0).
Proof. reflexivity. Qed.

(** *** C83 Growing resize, and constructors *)
(** The objects constructed before the exception are not counted: nobody destroys them. *)
Theorem C83_resize_grow_exactly : forall (A : Type) (a : A) (s : tst A) l n, holds s l -> length l < n <= length (t_cells s) ->
  (n - length l <= t_left s -> exists s', t_resize n a s = Val tt s' /\ holds s' (l ++ repeat (Some a) (n - length l)) /\ destroyed s') /\
  (t_left s < n - length l -> exists s' m, t_resize n a s = Thrown s' /\ t_size s' = length l /\ t_final s' = Done m /\ leaked m = t_left s).
Proof.
  intros A a s l n (E & r & C) HN. destruct s as [m sz k]. cbn [t_cells t_size t_left] in *. subst m sz.
  assert (HR : r = (n - length l) + (r - (n - length l))) by (rewrite app_length, map_length, repeat_length in HN; lia).
  pose proof (construct_loop a (n - length l) (map Obj l) (repeat Raw (r - (n - length l))) (length l) (TS (map Obj l ++ repeat Raw r) (length l) k)) as CL.
  cbn [t_cells t_size t_left] in CL. rewrite <- repeat_app, <- HR, map_length in CL. specialize (CL eq_refl eq_refl). replace (length l + (n - length l)) with n in CL by lia.
  unfold t_resize. cbn [t_cells t_size]. replace (n <=? length (map Obj l ++ repeat Raw r)) with true by lia. replace (length l <? n) with true by lia. cbn [tassert]. rewrite CL. clear CL. split; intros HK.
  - replace (n - length l <=? k) with true by lia. cbn [tbind]. eexists. split; [reflexivity|]. unfold set_size. cbn [t_cells t_left].
    assert (HH : holds (TS (map Obj l ++ map Obj (repeat (Some a) (n - length l)) ++ repeat Raw (r - (n - length l))) n (k - (n - length l))) (l ++ repeat (Some a) (n - length l))).
    { split; [cbn [t_size]; rewrite app_length, repeat_length; lia|]. eexists. cbn [t_cells]. now rewrite map_app, <- app_assoc. }
    split; [exact HH|]. eauto using holds_destroyed.
  - replace (n - length l <=? k) with false by lia. cbn [tbind]. eexists. eexists. split; [reflexivity|]. split; [reflexivity|]. unfold t_final. cbn [t_cells t_size]. split.
    + exact (destroy_range_spec l [] _ 0 (length l) eq_refl eq_refl).
    + cbn [app]. rewrite !leaked_app, !leaked_raw, leaked_obj, repeat_length. lia.
Qed.
Print Assumptions C83_resize_grow_exactly.
(** After that, using the vector again constructs over objects that are alive. *)
Theorem C83_after_failed_resize_refuted : exists (s s' : tst nat) l, holds s l /\ t_resize 3 7 s = Thrown s' /\ t_push 8 (TS (t_cells s') (t_size s') 1) = Bad FUB.
Proof. exists (TS (repeat Raw 4) 0 2), (TS [Obj (Some 7); Obj (Some 7); Raw; Raw] 0 0), []. split; [split; [reflexivity|now exists 4]|]. split; reflexivity. Qed.
Print Assumptions C83_after_failed_resize_refuted.

Lemma push_all_states {A} (l : list A) : forall s q, holds s q -> length q + length l <= length (t_cells s) ->
  if length l <=? t_left s then exists s', t_push_all l s = Val tt s' /\ holds s' (q ++ map Some l) /\ length (t_cells s') = length (t_cells s)
  else exists s', t_push_all l s = Thrown s' /\ t_size s' = length q + t_left s + 1 /\
    t_cells s' = map Obj (q ++ map Some (firstn (t_left s) l)) ++ repeat Raw (length (t_cells s) - length q - t_left s).
Proof.
  induction l as [|a l IH]; intros s q H HL; cbn [length t_push_all].
  - cbn [Nat.leb]. exists s. cbn [map]. rewrite app_nil_r. auto.
  - cbn [length] in HL. pose proof H as (E & n & C). destruct s as [m sz k]. cbn [t_cells t_size t_left] in *. subst m sz. destruct n as [|n]; [rewrite app_nil_r, map_length in HL; lia|].
    unfold t_push. cbn [t_cells t_size]. rewrite (proj2 (Nat.ltb_lt (length q) (length (map Obj q ++ repeat Raw (S n)))) ltac:(lia)). cbn [tassert]. unfold t_construct. cbn [t_cells t_size t_left set_size repeat].
    rewrite construct_mid by (now rewrite map_length). destruct k as [|k].
    + cbn [tbind Nat.leb]. eexists. split; [reflexivity|]. unfold set_size. cbn [t_size t_cells firstn map]. split; [lia|]. rewrite app_nil_r. f_equal.
      rewrite app_length, map_length. cbn [length]. rewrite repeat_length. replace (length q + S n - length q - 0) with (S n) by lia. reflexivity.
    + cbn [tbind Nat.leb]. set (s1 := TS _ (length q + 1) k).
      assert (H1 : holds s1 (q ++ [Some a])) by (split; [cbn [s1 t_size]; now rewrite app_length|]; exists n; cbn [s1 t_cells]; now rewrite map_app, <- app_assoc).
      specialize (IH s1 (q ++ [Some a]) H1). cbn [s1 t_cells t_left] in IH. rewrite !app_length in *. cbn [length] in *. rewrite !repeat_length in *. specialize (IH ltac:(lia)).
      destruct (length l <=? k).
      * destruct IH as (s' & I1 & I2 & I3). exists s'. split; [exact I1|]. split; [|rewrite I3; lia]. rewrite <- app_assoc in I2. exact I2.
      * destruct IH as (s' & I1 & I2 & I3). exists s'. split; [exact I1|]. split; [lia|]. rewrite I3. cbn [firstn map]. rewrite <- app_assoc. cbn [app].
        f_equal. f_equal. lia.
Qed.

(** FixedVector(first, last) and FixedVector{...}: an exception while copying any element is undefined behaviour. *)
Theorem C83_range_constructor_exactly : forall (A : Type) (l : list A) cap left, length l <= cap ->
  if length l <=? left then exists s, t_range_ctor cap left l = Built s /\ holds s (map Some l) else t_range_ctor cap left l = Broken FUB.
Proof.
  intros A l cap left HL. unfold t_range_ctor. pose proof (push_all_states l (t_new cap left) []) as P. unfold t_new in *. cbn [t_cells t_left length app] in P. rewrite repeat_length in P.
  assert (H0 : holds (TS (@repeat (cell A) Raw cap) 0 left) []) by (split; [reflexivity|]; now exists cap). specialize (P H0 ltac:(lia)).
  destruct (length l <=? left) eqn:F; destruct P as (s' & P1 & P2 & P3); rewrite P1; cbn [finish]; [eauto|].
  unfold t_final. rewrite (destroy_range_bad _ 0 _ left); [reflexivity|lia|]. rewrite P3. unfold live. rewrite map_app.
  assert (Z : length (map alive (map (@Obj A) (map Some (firstn left l)))) = left) by (rewrite !map_length, firstn_length_le; lia).
  rewrite nth_error_app2 by lia. rewrite Z, Nat.sub_diag. replace (cap - 0 - left) with (S (cap - left - 1)) by lia. reflexivity.
Qed.
Print Assumptions C83_range_constructor_exactly.
(** FixedVector(const FixedVector&) and FixedVector(size, value): the objects already constructed are never destroyed. *)
Theorem C83_copy_constructor_exactly : forall (A : Type) (l : list A) cap left, length l <= cap ->
  if length l <=? left then exists s, t_copy_ctor cap left l = Built s /\ holds s (map Some l) else exists m, t_copy_ctor cap left l = Failed m /\ leaked m = left.
Proof.
  intros A l cap left HL. unfold t_copy_ctor. pose proof (push_all_states l (t_new cap left) []) as P. unfold t_new in *. cbn [t_cells t_left length app] in P. rewrite repeat_length in P.
  assert (H0 : holds (TS (@repeat (cell A) Raw cap) 0 left) []) by (split; [reflexivity|]; now exists cap). specialize (P H0 ltac:(lia)).
  destruct (length l <=? left) eqn:F; destruct P as (s' & P1 & P2 & P3); rewrite P1; [eauto|].
  eexists. split; [reflexivity|]. rewrite P3, leaked_app, leaked_raw, leaked_obj, map_length, firstn_length_le; lia.
Qed.
Print Assumptions C83_copy_constructor_exactly.
Theorem C83_fill_constructor_exactly : forall (A : Type) (a : A) n cap left, n <= cap ->
  if n <=? left then exists s, t_fill_ctor cap left n a = Built s /\ holds s (repeat (Some a) n) else exists m, t_fill_ctor cap left n a = Failed m /\ leaked m = left.
Proof.
  intros A a n cap left HL. unfold t_fill_ctor.
  assert (H0 : holds (@t_new A cap left) []) by (split; [reflexivity|]; now exists cap). destruct n as [|n].
  - cbn [Nat.leb]. unfold t_resize, t_new. cbn [t_cells t_size t_left Nat.ltb Nat.leb tassert finish]. eexists. split; [reflexivity|]. exact H0.
  - destruct (C83_resize_grow_exactly A a (t_new cap left) [] (S n) H0) as (P1 & P2); [unfold t_new; cbn [t_cells length]; rewrite repeat_length; lia|].
    change (t_left (t_new cap left)) with left in *. cbn [length] in *. rewrite Nat.sub_0_r in *. destruct (S n <=? left) eqn:F.
    + destruct (P1 ltac:(lia)) as (s' & -> & P & _). cbn [finish]. eauto.
    + destruct (P2 ltac:(lia)) as (s' & m & -> & _ & D & K). cbn [finish]. rewrite D. eauto.
Qed.
Print Assumptions C83_fill_constructor_exactly.
Example C83_ctors : t_range_ctor 3 1 [5; 6] = Broken FUB /\ t_copy_ctor 3 1 [5; 6] = Failed [Obj (Some 5); Raw; Raw] /\ t_fill_ctor 3 1 2 5 = Failed [Obj (Some 5); Raw; Raw].
Proof. repeat split. Qed.

(** *** C84 HybridVector: moving to the fallback *)
(** What a HybridVector holding [l] looks like. *)
Definition hybrid {A} (h : hst (A := A)) (l : list (option A)) : Prop :=
  if h_used h then h_fallback h = l /\ t_cells (h_inline h) = repeat Raw (length (t_cells (h_inline h))) else holds (h_inline h) l /\ h_fallback h = [].
Definition h_sound {A} (h : hst (A := A)) : Prop := h_final h = Done (repeat Raw (length (t_cells (h_inline h)))).

Lemma hybrid_sound {A} (h : hst (A := A)) l : hybrid h l -> h_sound h.
Proof. unfold hybrid, h_sound, h_final. destruct (h_used h); intros (H1 & H2); [congruence|]. exact (holds_destroyed _ _ H1). Qed.

Lemma move_out_loop {A} nm (q : list (option A)) : forall p n fb sz k a, a = length p -> 
  tloop (range a (a + length q)) (h_move_out nm) (HS (TS (p ++ map Obj q ++ repeat Raw n) sz k) fb false) =
    if nm then Val tt (HS (TS (p ++ repeat Raw (length q) ++ repeat Raw n) sz k) (fb ++ q) false)
    else if length q <=? k then Val tt (HS (TS (p ++ repeat Raw (length q) ++ repeat Raw n) sz (k - length q)) (fb ++ q) false)
    else Thrown (HS (TS (p ++ repeat Raw k ++ Obj None :: map Obj (skipn (k + 1) q) ++ repeat Raw n) sz 0) (fb ++ firstn k q) false).
Proof.
  induction q as [|x q IH]; intros p n fb sz k a ->; cbn [length].
  - rewrite Nat.add_0_r. unfold range. rewrite Nat.sub_diag. cbn [seq tloop map repeat app Nat.leb]. rewrite app_nil_r, Nat.sub_0_r. now destruct nm.
  - unfold range. replace (length p + S (length q) - length p) with (S (length q)) by lia. cbn [seq tloop]. unfold h_move_out at 1. cbn [h_inline h_fallback h_used t_cells t_size t_left map app].
    rewrite take_mid by reflexivity. rewrite destroy_mid by reflexivity.
    assert (S1 : forall k, tloop (seq (S (length p)) (length q)) (h_move_out nm) (HS (TS (p ++ Raw :: map Obj q ++ repeat Raw n) sz k) (fb ++ [x]) false) =
      tloop (range (S (length p)) (S (length p) + length q)) (h_move_out nm) (HS (TS ((p ++ [Raw]) ++ map Obj q ++ repeat Raw n) sz k) (fb ++ [x]) false)).
    { intros k0. rewrite <- app_assoc. unfold range. now replace (S (length p) + length q - S (length p)) with (length q) by lia. }
    destruct nm; cbn [tbind]; [|destruct k as [|k]; cbn [tbind]].
    + rewrite S1, IH by (rewrite app_length; cbn; lia). now rewrite <- !app_assoc.
    + cbn [Nat.leb repeat app firstn skipn Nat.add]. now rewrite app_nil_r.
    + rewrite S1, IH by (rewrite app_length; cbn; lia). cbn [Nat.leb]. destruct (length q <=? k); cbn [repeat app firstn skipn Nat.add Nat.sub]; now rewrite <- !app_assoc.
Qed.

(** With moves that do not throw: an exception comes from the allocation and changes nothing; else the fallback has the elements, in order. *)
Theorem C84_spill_keeps_the_vector_sound : forall (A : Type) (h : hst (A := A)) l, hybrid h l -> h_used h = false ->
  (t_left (h_inline h) = 0 -> h_spill true h = Thrown h) /\
  (t_left (h_inline h) <> 0 -> exists h', h_spill true h = Val tt h' /\ h_used h' = true /\ hybrid h' l /\ h_sound h').
Proof.
  intros A [[m sz k] fb u] l H U. cbn [h_inline h_used h_fallback t_left] in *. subst u. destruct H as ((E & n & C) & F). cbn [h_inline h_used h_fallback t_left t_cells t_size] in *. subst m sz fb.
  split; intros K.
  - subst k. reflexivity.
  - destruct k as [|k]; [contradiction|]. unfold h_spill, h_reserve. cbn [h_inline h_used h_fallback t_left t_cells t_size negb tassert tbind].
    pose proof (move_out_loop true l [] n [] (length l) k 0 eq_refl) as ML. cbn [app Nat.add] in ML. rewrite ML. cbn [tbind app h_inline h_fallback].
    eexists. split; [reflexivity|]. split; [reflexivity|].
    assert (HY : hybrid (HS (TS (repeat Raw (length l) ++ repeat Raw n) (length l) k) l true) l).
    { split; [reflexivity|]. cbn [h_inline t_cells]. now rewrite <- repeat_app, repeat_length. }
    split; [exact HY|]. eauto using hybrid_sound.
Qed.
Print Assumptions C84_spill_keeps_the_vector_sound.

(** push_back on a full HybridVector: an exception (allocation or constructor) leaves the same elements, all alive. *)
Theorem C84_push_on_full_is_strong : forall (A : Type) (a : A) (h : hst (A := A)) l, hybrid h l -> h_used h = true \/ t_size (h_inline h) = length (t_cells (h_inline h)) ->
  match h_push true a h with
  | Val _ h' => hybrid h' (l ++ [Some a]) /\ h_sound h'
  | Thrown h' => hybrid h' l /\ h_sound h'
  | Bad _ => False
  end.
Proof.
  intros A a h l H Full. assert (FP : forall h, hybrid h l -> h_used h = true -> match h_fallback_push a h with Val _ h' => hybrid h' (l ++ [Some a]) /\ h_sound h' | Thrown h' => hybrid h' l /\ h_sound h' | Bad _ => False end).
  { intros [[m sz k] fb u] H1 U. cbn [h_used] in U. subst u. unfold h_fallback_push. cbn [h_inline t_left h_fallback h_used t_cells t_size]. destruct k as [|k].
    - split; [exact H1|]. exact (hybrid_sound _ _ H1).
    - assert (HY : hybrid (HS (TS m sz k) (fb ++ [Some a]) true) (l ++ [Some a])).
      { destruct H1 as (H1 & H2). split; [cbn [h_fallback] in *; congruence|exact H2]. }
      split; [exact HY|]. exact (hybrid_sound _ _ HY). }
  unfold h_push. destruct (h_used h) eqn:U; [now apply FP|]. destruct Full as [?|Full]; [discriminate|]. rewrite Full, Nat.leb_refl.
  destruct (C84_spill_keeps_the_vector_sound A h l H U) as (S1 & S2). destruct (t_left (h_inline h)) eqn:Lf.
  - rewrite S1 by reflexivity. cbn [tbind]. split; [exact H|]. exact (hybrid_sound _ _ H).
  - destruct (S2 ltac:(lia)) as (h' & -> & U' & H' & _). cbn [tbind]. now apply FP.
Qed.
Print Assumptions C84_push_on_full_is_strong.

(** When T's move may throw: from the second element on, what was already moved out is destroyed twice. *)
Theorem C84_throwing_move_refuted : forall (A : Type) (h : hst (A := A)) l, hybrid h l -> h_used h = false -> 2 <= t_left (h_inline h) <= length l ->
  exists h', h_spill false h = Thrown h' /\ h_final h' = Fault FUB.
Proof.
  intros A [[m sz k] fb u] l H U K. cbn [h_inline h_used h_fallback t_left] in *. subst u. destruct H as ((E & n & C) & F). cbn [h_inline h_used h_fallback t_left t_cells t_size] in *. subst m sz fb.
  destruct k as [|k]; [lia|]. unfold h_spill, h_reserve. cbn [h_inline h_used h_fallback t_left t_cells t_size negb tassert tbind].
  pose proof (move_out_loop false l [] n [] (length l) k 0 eq_refl) as ML. cbn [app Nat.add] in ML. rewrite ML. replace (length l <=? k) with false by lia. cbn [tbind app].
  eexists. split; [reflexivity|]. unfold h_final, t_final. cbn [h_used h_inline t_cells t_size]. apply (destroy_range_bad _ 0 _ 0); [lia|]. destruct k as [|k]; [lia|]. reflexivity.
Qed.
Print Assumptions C84_throwing_move_refuted.
Example C84_spill : h_push true 9 (HS (TS [Obj (Some 1); Obj (Some 2)] 2 1) [] false) = Thrown (HS (TS [Raw; Raw] 2 0) [Some 1; Some 2] true).
Proof. reflexivity. Qed.
Example C84_spill_throws : h_push false 9 (HS (TS [Obj (Some 1); Obj (Some 2)] 2 2) [] false) = Thrown (HS (TS [Raw; Obj None] 2 0) [Some 1] false).
Proof. reflexivity. Qed.
