(** Property C107: the memory of NazaraStackArray and NazaraStackVector. *)
From Verif Require Import Base CInt CellModel CellProofs StackModel StackProofs VectorCopy StackAllocModel.
Open Scope Z_scope.

(** ** Specification *)
(** An expression without side effects, of value [n]. *)
Definition pure_of {S} (e : size_expr S) (n : Z) : Prop := forall s, e s = (n, s).
(** Element [i] of size [sz] at address [p] takes the bytes p + i * sz ... *)
Definition element_byte (p sz i a : Z) : Prop := p + i * sz <= a < p + (i + 1) * sz.
Definition reserved_byte (m : stack_memory) (a : Z) : Prop := address m <= a < address m + reserved m.
(** All bytes of all elements are reserved. *)
Definition holds_elements (m : stack_memory) (sz : Z) : Prop := forall i a, 0 <= i < elements m -> element_byte (address m) sz i a -> reserved_byte m a.
Definition elements_aligned (m : stack_memory) (sz align : Z) : Prop := forall i, 0 <= i < elements m -> (align | address m + i * sz).

Lemma holds_iff m sz : 0 < sz -> 0 < elements m -> (holds_elements m sz <-> elements m * sz <= reserved m).
Proof.
  intros Hs Hn. unfold holds_elements, element_byte, reserved_byte. split; intros H.
  - specialize (H (elements m - 1) (address m + elements m * sz - 1)). nia.
  - intros i a Hi Ha. nia.
Qed.

Lemma alloca_bytes_pure {S} pl (e : size_expr S) n sz s : pure_of e n -> 
  alloca_bytes pl (bytes_expr e sz) s = (match pl with Windows => n * sz mod 2 ^ 64 | Posix => Z.max 1 (n * sz mod 2 ^ 64) end, s).
Proof.
  intros P. assert (B : forall s, bytes_expr e sz s = (n * sz mod 2 ^ 64, s)) by (intros; unfold bytes_expr; now rewrite P).
  unfold alloca_bytes. destruct pl; rewrite !B; [reflexivity|]. pose proof (Z.mod_pos_bound (n * sz) (2 ^ 64) ltac:(lia)) as M.
  destruct (Z.gtb_spec (n * sz mod 2 ^ 64) 0) as [G|G]; f_equal; lia.
Qed.

(** Without side effects the macro gives, in either order, the same memory. *)
Lemma macro_pure {S} pl o (e : size_expr S) n sz bottom sp s : pure_of e n ->
  stack_macro pl o e sz bottom sp s =
  (let b := match pl with Windows => n * sz mod 2 ^ 64 | Posix => Z.max 1 (n * sz mod 2 ^ 64) end in
   p <- alloca bottom sp b ;; Done (Memory p b n, s)).
Proof. intros P. unfold stack_macro. destruct o; rewrite ?P, (alloca_bytes_pure pl e n sz s P); destruct (alloca _ _ _); cbn [bind]; rewrite ?P; reflexivity. Qed.

Lemma alloca_done bottom sp n p : alloca bottom sp n = Done p -> bottom <= p /\ p + n <= sp /\ (16 | p).
Proof.
  unfold alloca. destruct (Z.ltb_spec ((sp - n) / 16 * 16) bottom) as [H|H]; intros [= <-]. split; [assumption|]. split.
  - pose proof (Z.mul_div_le (sp - n) 16 ltac:(lia)). lia.
  - exists ((sp - n) / 16). reflexivity.
Qed.

(** ** C107 *)
(** A size without side effects whose bytes can be counted: the macro evaluates to memory below the stack pointer for exactly these elements,
    all aligned when the alignment of T divides 16. *)
Theorem C107_memory_partial : forall (S : Type) pl o (e : size_expr S) n sz align bottom sp s m s',
  pure_of e n -> 0 <= n -> 0 < sz -> n * sz < 2 ^ 64 -> (align | sz) -> (align | 16) ->
  stack_macro pl o e sz bottom sp s = Done (m, s') ->
  s' = s /\ elements m = n /\ holds_elements m sz /\ elements_aligned m sz align /\ bottom <= address m /\ address m + reserved m <= sp /\
  (0 < n -> reserved m = n * sz) /\ (n = 0 -> 0 <= reserved m <= 1).
Proof.
  intros S pl o e n sz align bottom sp s m s' P Hn Hs Hb Da D16. rewrite (macro_pure pl o e n sz bottom sp s P). cbv zeta.
  replace (n * sz mod 2 ^ 64) with (n * sz) by (symmetry; apply Z.mod_small; nia).
  destruct (alloca _ _ _) as [p|] eqn:E; cbn [bind]; [|discriminate]. intros [= <- <-]. apply alloca_done in E as (E1 & E2 & E3). cbn [elements reserved address].
  set (b := match pl with Windows => n * sz | Posix => Z.max 1 (n * sz) end) in *.
  assert (B : n * sz <= b /\ (0 < n -> b = n * sz) /\ (n = 0 -> 0 <= b <= 1)) by (subst b; destruct pl; nia).
  split; [reflexivity|]. split; [reflexivity|]. split.
  { unfold holds_elements, element_byte, reserved_byte. cbn [elements reserved address]. intros i a Hi Ha. nia. }
  split.
  { unfold elements_aligned. cbn [elements address]. intros i _. apply Z.divide_add_r; [now apply Z.divide_trans with 16|now apply Z.divide_mul_r]. }
  tauto.
Qed.

(** It fails only when the stack is exhausted. *)
Theorem C107_defined : forall (S : Type) pl o (e : size_expr S) n sz bottom sp s, pure_of e n -> 0 <= n -> 0 < sz -> n * sz < 2 ^ 64 ->
  n * sz + 16 <= sp - bottom -> exists m, stack_macro pl o e sz bottom sp s = Done (m, s).
Proof.
  intros S pl o e n sz bottom sp s P Hn Hs Hb H. rewrite (macro_pure pl o e n sz bottom sp s P). cbv zeta.
  replace (n * sz mod 2 ^ 64) with (n * sz) by (symmetry; apply Z.mod_small; nia).
  set (b := match pl with Windows => n * sz | Posix => Z.max 1 (n * sz) end) in *.
  assert (B : b <= Z.max 1 (n * sz)) by (subst b; destruct pl; nia).
  unfold alloca. pose proof (Z.mul_succ_div_gt (sp - b) 16 ltac:(lia)).
  destruct (Z.ltb_spec ((sp - b) / 16 * 16) bottom) as [L|L]; [nia|]. eexists. reflexivity.
Qed.

(** Memory of several macros in one function is disjoint, whatever the expressions do. *)
Lemma stack_macro_region {S} pl o (e : size_expr S) sz bottom sp s m s' : stack_macro pl o e sz bottom sp s = Done (m, s') ->
  address m + reserved m <= sp.
Proof.
  unfold stack_macro. destruct o.
  - destruct (e s) as [n s1]. destruct (alloca_bytes _ _ _) as [b s2]. destruct (alloca _ _ _) as [p|] eqn:E; cbn [bind]; [|discriminate].
    intros [= <- <-]. apply alloca_done in E. cbn. lia.
  - destruct (alloca_bytes _ _ _) as [b s2]. destruct (alloca _ _ _) as [p|] eqn:E; cbn [bind]; [|discriminate].
    destruct (e s2) as [n s3]. intros [= <- <-]. apply alloca_done in E. cbn. lia.
Qed.
Lemma stack_macros_below {S} pl (l : list (bool * size_expr S * Z)) : forall bottom sp s ms s', (forall o e sz, In (o, e, sz) l -> 0 < sz) ->
  (forall e sz s0 b s1, alloca_bytes pl (bytes_expr (S := S) e sz) s0 = (b, s1) -> 0 <= b) ->
  stack_macros pl l bottom sp s = Done (ms, s') -> Forall (fun m => address m + reserved m <= sp) ms /\
  (forall i j mi mj, (i < j)%nat -> nth_error ms i = Some mi -> nth_error ms j = Some mj -> address mj + reserved mj <= address mi).
Proof.
  induction l as [|[[o e] sz] l IH]; intros bottom sp s ms s' Hsz Hb; cbn [stack_macros].
  - intros [= <- <-]. split; [constructor|]. intros i j mi mj _ E. destruct i; discriminate.
  - destruct (stack_macro pl o e sz bottom sp s) as [[m s1]|] eqn:E; cbn [bind]; [|discriminate].
    destruct (stack_macros pl l bottom (address m) s1) as [[ms1 s2]|] eqn:E2; cbn [bind]; [|discriminate]. intros [= <- <-].
    pose proof (stack_macro_region _ _ _ _ _ _ _ _ _ E) as R.
    destruct (IH _ _ _ _ _ (fun o e sz H => Hsz o e sz (or_intror H)) Hb E2) as [F P]. 
    assert (R0 : 0 <= reserved m).
    { clear - E Hb. unfold stack_macro in E. destruct o.
      - destruct (e s) as [n s3]. destruct (alloca_bytes _ _ _) as [b s4] eqn:B. apply Hb in B. destruct (alloca _ _ _); cbn [bind] in E; [|discriminate]. injection E as <- <-. exact B.
      - destruct (alloca_bytes _ _ _) as [b s4] eqn:B. apply Hb in B. destruct (alloca _ _ _); cbn [bind] in E; [|discriminate]. destruct (e s4). injection E as <- <-. exact B. }
    split.
    + constructor; [exact R|]. eapply Forall_impl; [|exact F]. cbn beta. intros m' H. lia.
    + intros i j mi mj Hij Ei Ej. destruct j as [|j]; [lia|]. destruct i as [|i].
      * injection Ei as <-. cbn in Ej. rewrite Forall_forall in F. apply F. eapply nth_error_In. exact Ej.
      * cbn in Ei, Ej. apply (P i j); [lia|assumption..].
Qed.

Lemma bytes_nonneg {S} pl (e : size_expr S) sz s b s1 : alloca_bytes pl (bytes_expr e sz) s = (b, s1) -> 0 <= b.
Proof.
  unfold alloca_bytes, bytes_expr. destruct pl.
  - destruct (e s). intros [= <- <-]. now apply Z.mod_pos_bound.
  - destruct (e s) as [v s2]. destruct (_ >? _); [|intros [= <- <-]; lia]. destruct (e s2). intros [= <- <-]. now apply Z.mod_pos_bound.
Qed.

(** Elements that do not fit in what is left of the stack: nothing tells. *)
Theorem C107_stack_overflow_refuted : forall (S : Type) pl o (e : size_expr S) n sz bottom sp s, pure_of e n -> 0 < n -> 0 < sz -> n * sz < 2 ^ 64 ->
  sp - bottom < n * sz -> stack_macro pl o e sz bottom sp s = Fault FUB.
Proof.
  intros S pl o e n sz bottom sp s P Hn Hs Hb H. rewrite (macro_pure pl o e n sz bottom sp s P). cbv zeta.
  replace (n * sz mod 2 ^ 64) with (n * sz) by (symmetry; apply Z.mod_small; nia).
  set (b := match pl with Windows => n * sz | Posix => Z.max 1 (n * sz) end) in *. assert (B : n * sz <= b) by (unfold b; destruct pl; lia).
  unfold alloca. pose proof (Z.mul_div_le (sp - b) 16 ltac:(lia)). destruct (Z.ltb_spec ((sp - b) / 16 * 16) bottom) as [L|L]; [reflexivity|lia].
Qed.
Print Assumptions C107_stack_overflow_refuted.


Theorem C107_disjoint : forall (S : Type) pl (l : list (bool * size_expr S * Z)) bottom sp s ms s',
  (forall o e sz, In (o, e, sz) l -> 0 < sz) -> stack_macros pl l bottom sp s = Done (ms, s') ->
  forall i j mi mj, i <> j -> nth_error ms i = Some mi -> nth_error ms j = Some mj -> forall a, reserved_byte mi a -> ~ reserved_byte mj a.
Proof.
  intros S pl l bottom sp s ms s' Hsz E i j mi mj Hij Ei Ej a Ha Hb.
  destruct (stack_macros_below pl l bottom sp s ms s' Hsz (fun e sz s0 b s1 => bytes_nonneg pl e sz s0 b s1) E) as [_ P]. unfold reserved_byte in *.
  destruct (Nat.lt_total i j) as [L|[L|L]]; [|congruence|].
  - pose proof (P i j mi mj L Ei Ej). lia.
  - pose proof (P j i mj mi L Ej Ei). lia.
Qed.

(** On the memory of the macro the constructor of StackArray constructs all its elements if they fit, and is undefined otherwise. *)
Lemma construct_too_many {A} (dflt : A) k n : (k < n)%nat -> foreach (range 0 n) (fun m i => construct m i (Some dflt)) (repeat Raw k) = Fault FUB.
Proof.
  intros H. unfold range. replace (seq 0 (n - 0)) with (seq 0 k ++ seq k (n - k)) by (rewrite <- seq_app; f_equal; lia). rewrite foreach_app.
  pose proof (construct_range_spec (A := A) k [] [] (Some dflt) 0 k eq_refl eq_refl) as C. unfold construct_range, range in C. cbn [app] in C. rewrite app_nil_r, Nat.sub_0_r in C. rewrite C. cbn [bind].
  destruct (n - k)%nat as [|r] eqn:R; [lia|]. cbn [seq foreach]. unfold construct at 1.
  replace (nth_error _ k) with (@None (cell A)) by (symmetry; apply nth_error_None; rewrite app_nil_r, map_length, repeat_length; lia). reflexivity.
Qed.

Theorem C107_constructor : forall (A : Type) (dflt : A) m sz, 0 < sz -> 0 <= reserved m -> 0 < elements m ->
  (holds_elements m sz -> exists h a, sa_new dflt [block sz m] 0 (Z.to_nat (elements m)) = Done (h, a) /\ a_size a = Z.to_nat (elements m)) /\
  (~ holds_elements m sz -> sa_new dflt [block sz m] 0 (Z.to_nat (elements m)) = Fault FUB).
Proof.
  intros A dflt m sz Hs Hr Hn. rewrite (holds_iff m sz Hs Hn). unfold block. set (k := Z.to_nat (reserved m / sz)). set (n := Z.to_nat (elements m)).
  pose proof (Z.div_pos (reserved m) sz Hr Hs) as D0. split; intros H.
  - assert (L : (n <= k)%nat). { subst n k. apply Z2Nat.inj_le; [lia|lia|]. apply Z.div_le_lower_bound; lia. }
    rewrite (sa_new_spec dflt [repeat Raw k] 0 n (repeat Raw (k - n))).
    + eexists _, _. split; reflexivity.
    + cbn. rewrite <- repeat_app. do 2 f_equal. lia.
  - assert (L : (k < n)%nat). { subst n k. apply Z2Nat.inj_lt; [lia|lia|]. apply Z.div_lt_upper_bound; lia. }
    unfold sa_new. rewrite (foreach_block (fun m i => construct m i (Some dflt)) 0 _ [repeat Raw k] (repeat Raw k) eq_refl).
    now rewrite (construct_too_many dflt k n L).
Qed.

(** The size is evaluated twice on Windows and when it is zero, and three times otherwise. *)
Definition counted {S} (e : size_expr S) : size_expr (S * nat) := fun '(s, k) => let (v, s) := e s in (v, (s, Datatypes.S k)).
Theorem C107_evaluations : forall (S : Type) pl o (e : size_expr S) n sz bottom sp s k m s' k', pure_of e n -> 0 <= n -> 0 < sz -> n * sz < 2 ^ 64 ->
  stack_macro pl o (counted e) sz bottom sp (s, k) = Done (m, (s', k')) ->
  k' = (k + match pl with Windows => 2 | Posix => if (n =? 0)%Z then 2 else 3 end)%nat.
Proof.
  intros S pl o e n sz bottom sp s k m s' k' P Hn Hs Hb. 
  assert (C : forall s k, counted e (s, k) = (n, (s, Datatypes.S k))) by (intros; unfold counted; now rewrite P).
  assert (G : (n * sz mod 2 ^ 64 >? 0) = negb (n =? 0)) by (rewrite Z.mod_small by nia; destruct (Z.gtb_spec (n * sz) 0), (Z.eqb_spec n 0); cbn; nia).
  unfold stack_macro, alloca_bytes, bytes_expr. destruct o, pl; rewrite ?C, ?G; destruct (n =? 0); cbn [negb]; rewrite ?C;
    (destruct (alloca _ _ _) as [p|]; cbn [bind]; [|discriminate]); rewrite ?C; intros [= _ _ <-]; lia.
Qed.

(** ** What does not hold *)
(** When the number of bytes does not fit in std::size_t the memory is too small, on both platforms. *)
Theorem C107_overflow_refuted : forall (S : Type) pl o (e : size_expr S) n sz bottom sp s m s', pure_of e n -> 0 < n < 2 ^ 64 -> 0 < sz -> 2 ^ 64 <= n * sz ->
  stack_macro pl o e sz bottom sp s = Done (m, s') -> elements m = n /\ ~ holds_elements m sz.
Proof.
  intros S pl o e n sz bottom sp s m s' P Hn Hs Hb. rewrite (macro_pure pl o e n sz bottom sp s P). cbv zeta.
  pose proof (Z.mod_pos_bound (n * sz) (2 ^ 64) ltac:(lia)) as M.
  destruct (alloca _ _ _) as [p|] eqn:E; cbn [bind]; [|discriminate]. intros [= <- <-]. cbn [elements]. split; [reflexivity|].
  rewrite holds_iff by (cbn; lia). cbn [elements reserved]. destruct pl; lia.
Qed.

(** [NazaraStackArray(T, i++)] constructs more elements than it has memory for, when the memory is requested first. *)
Definition post_increment : size_expr Z := fun i => (i, i + 1).
Theorem C107_side_effect_refuted : forall pl i sz bottom sp m i', 0 <= i -> 1 < sz -> (i + 2) * sz < 2 ^ 64 ->
  stack_macro pl false post_increment sz bottom sp i = Done (m, i') -> ~ holds_elements m sz.
Proof.
  intros pl i sz bottom sp m i' Hi Hs Hb. unfold stack_macro, alloca_bytes, bytes_expr, post_increment.
  rewrite !Z.mod_small by nia. destruct pl.
  - destruct (alloca _ _ _) as [p|] eqn:E; cbn [bind]; [|discriminate]. intros [= <- <-]. rewrite holds_iff by (cbn; lia). cbn [elements reserved]. nia.
  - destruct (Z.gtb_spec (i * sz) 0) as [G|G].
    + destruct (alloca _ _ _) as [p|] eqn:E; cbn [bind]; [|discriminate]. intros [= <- <-]. rewrite holds_iff by (cbn; lia). cbn [elements reserved]. nia.
    + destruct (alloca _ _ _) as [p|] eqn:E; cbn [bind]; [|discriminate]. intros [= <- <-]. rewrite holds_iff by (cbn; nia). cbn [elements reserved]. nia.
Qed.
(** In the other order it has memory to spare, so the program works or not depending on the compiler. *)
Theorem C107_side_effect_order : forall pl i sz bottom sp m i', 0 < i -> 0 < sz -> (i + 2) * sz < 2 ^ 64 ->
  stack_macro pl true post_increment sz bottom sp i = Done (m, i') -> holds_elements m sz /\ elements m * sz < reserved m.
Proof.
  intros pl i sz bottom sp m i' Hi Hs Hb. unfold stack_macro, alloca_bytes, bytes_expr, post_increment.
  rewrite !Z.mod_small by nia. destruct pl.
  - destruct (alloca _ _ _) as [p|] eqn:E; cbn [bind]; [|discriminate]. intros [= <- <-]. rewrite holds_iff by (cbn; lia). cbn [elements reserved]. nia.
  - destruct (Z.gtb_spec ((i + 1) * sz) 0) as [G|G]; [|nia].
    destruct (alloca _ _ _) as [p|] eqn:E; cbn [bind]; [|discriminate]. intros [= <- <-]. rewrite holds_iff by (cbn; lia). cbn [elements reserved]. nia.
Qed.

(** Types with an alignment above 16: the address can be misaligned, for every size. *)
Theorem C107_overaligned_refuted : forall (S : Type) pl o (e : size_expr S) n sz k s, pure_of e n -> 0 < n -> 0 < sz -> n * sz < 2 ^ 64 -> 4 < k ->
  exists sp m, stack_macro pl o e sz 0 sp s = Done (m, s) /\ ~ elements_aligned m sz (2 ^ k).
Proof.
  intros S pl o e n sz k s P Hn Hs Hb Hk.
  exists (2 ^ k + 16 + n * sz), (Memory (2 ^ k + 16) (n * sz) n).
  assert (K : 2 ^ k = 2 ^ (k - 4) * 16) by (change 16 with (2 ^ 4); rewrite <- Z.pow_add_r by lia; f_equal; lia).
  assert (K2 : 2 <= 2 ^ (k - 4)) by (change 2 with (2 ^ 1) at 1; apply Z.pow_le_mono_r; lia).
  split.
  - rewrite (macro_pure pl o e n sz 0 _ s P). cbv zeta. rewrite Z.mod_small by nia. 
    replace (match pl with Windows => n * sz | Posix => Z.max 1 (n * sz) end) with (n * sz) by (destruct pl; nia).
    unfold alloca. replace (2 ^ k + 16 + n * sz - n * sz) with ((2 ^ (k - 4) + 1) * 16) by lia. rewrite Z.div_mul by lia.
    destruct (Z.ltb_spec ((2 ^ (k - 4) + 1) * 16) 0); [lia|]. cbn [bind]. do 3 f_equal. lia.
  - unfold elements_aligned. cbn [elements address]. intros H. specialize (H 0 ltac:(lia)). destruct H as [q H]. rewrite K in H. generalize dependent (2 ^ (k - 4)). clear.
    intros r _ Hr H. assert (q * r = r + 1) by lia. destruct (Z_le_gt_dec q 1); nia.
Qed.

(** ** Non-vacuity *)
Example C107_case : stack_macro Posix true (fun s : unit => (3, s)) 8 0 1000 tt = Done (Memory 976 24 3, tt).
Proof. reflexivity. Qed.
Example C107_empty : stack_macro Posix true (fun s : unit => (0, s)) 8 0 1000 tt = Done (Memory 992 1 0, tt) /\ stack_macro Windows true (fun s : unit => (0, s)) 8 0 1000 tt = Done (Memory 992 0 0, tt).
Proof. split; reflexivity. Qed.
Example C107_increment : stack_macro Posix false post_increment 8 0 1000 3 = Done (Memory 960 32 5, 6) /\ sa_new 7%nat [block 8 (Memory 960 32 5)] 0 5 = Fault FUB.
Proof. split; reflexivity. Qed.
Example C107_wrap : stack_macro Posix true (fun s : unit => (2 ^ 61 + 1, s)) 8 0 1000 tt = Done (Memory 992 8 (2 ^ 61 + 1), tt).
Proof. reflexivity. Qed.
Example C107_two : exists m1 m2, stack_macros Posix [(true, fun s : unit => (3, s), 8); (false, fun s => (5, s), 4)] 0 1000 tt = Done ([m1; m2], tt) /\ address m1 = 976 /\ address m2 = 944.
Proof. eexists _, _. split; [reflexivity|split; reflexivity]. Qed.

Print Assumptions C107_memory_partial.
Print Assumptions C107_defined.
Print Assumptions C107_disjoint.
Print Assumptions C107_constructor.
Print Assumptions C107_evaluations.
Print Assumptions C107_overflow_refuted.
Print Assumptions C107_side_effect_refuted.
Print Assumptions C107_side_effect_order.
Print Assumptions C107_overaligned_refuted.
