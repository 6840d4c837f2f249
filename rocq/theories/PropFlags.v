(** Properties C56-C58: Flags. *)
From Verif Require Import Base CInt MathModel FlagsSpec FlagsModel FlagsProofs.
Open Scope Z_scope.

(** *** C56 *)
(** Every expression built from the operators evaluates to the set it denotes (complement within 0..mx).
    With [auto] = false the elements are the bits of the enumerators' values. *)
Theorem C56_expressions : forall mx auto x, 0 <= mx <= 31 -> enums (fun e => 0 <= e <= mx) x -> exists v, eval mx auto x = Done v /\ holds mx v (denote auto x).
Proof.
  intros mx auto x Hm HE. apply eval_set; [lia|].
  enough (W : forall P Q : Z -> Prop, (forall e, P e -> Q e) -> forall y, enums P y -> enums Q y) by (eapply W; [|exact HE]; intros e He; split; [exact He | cbn in *; lia]).
  intros P Q PQ y. induction y; cbn [enums]; try tauto; intuition.
Qed.
Print Assumptions C56_expressions.
Theorem C56_test : forall mx v f S T, holds mx v S -> holds mx f T -> flags_test v f = true <-> forall e, 0 <= e <= mx -> T e = true -> S e = true.
Proof. exact flags_test_set. Qed.
Print Assumptions C56_test.
Theorem C56_equal : forall mx v f S T, holds mx v S -> holds mx f T ->
  (flags_eq v f = true <-> forall e, 0 <= e <= mx -> S e = T e) /\ (flags_ne v f = true <-> exists e, 0 <= e <= mx /\ S e <> T e).
Proof.
  intros mx v f S T HV HF. split; [now apply flags_eq_set|]. unfold flags_ne, flags_eq. rewrite negb_true_iff, Z.eqb_neq. split.
  - intros N. destruct (Z_lt_le_dec mx 0) as [HM|HM].
    { exfalso. apply N. destruct HV as (HV & _), HF as (HF & _). assert (2 ^ (mx + 1) <= 1); [|lia].
      destruct (Z.eq_dec mx (-1)) as [->|]; [cbn; lia | rewrite Z.pow_neg_r by lia; lia]. }
    destruct (existsb (fun e => xorb (S e) (T e)) (map Z.of_nat (seq 0 (Z.to_nat (mx + 1))))) eqn:E.
    + apply existsb_exists in E. destruct E as (e & He & X). apply in_map_iff in He. destruct He as (k & <- & Hk). apply in_seq in Hk.
      exists (Z.of_nat k). split; [lia|]. destruct (S (Z.of_nat k)), (T (Z.of_nat k)); discriminate.
    + exfalso. apply N. apply Z.eqb_eq. apply (flags_eq_set mx v f S T HV HF). intros i Hi.
      assert (K : xorb (S i) (T i) = false). { destruct (xorb (S i) (T i)) eqn:X; [|reflexivity]. rewrite <- E. symmetry. apply existsb_exists. exists i. split; [|exact X]. apply in_map_iff. exists (Z.to_nat i). split; [lia|]. apply in_seq. lia. }
      destruct (S i), (T i); trivial; discriminate.
  - intros (e & He & D) ->. apply D. destruct HV as (_ & HV), HF as (_ & HF). now rewrite <- HV, <- HF.
Qed.
Print Assumptions C56_equal.
Theorem C56_bool : forall mx v S, 0 <= mx -> holds mx v S -> flags_bool v = true <-> exists e, 0 <= e <= mx /\ S e = true.
Proof. exact flags_bool_set. Qed.
Print Assumptions C56_bool.
(** Conversion to an integer type able to represent the value keeps it. *)
Theorem C56_to_int : forall mx t v S, 0 <= mx <= 63 -> In t int_types -> holds mx v S -> v <= tmax t -> flags_to_int t v = v.
Proof. exact flags_to_int_id. Qed.
Print Assumptions C56_to_int.
(** For enumerators declared by value, the complement is not taken within the enumerators: with enumerators 1, 2, 4, ..., 2^k and
    2^k the largest, the complement of the full set is never empty for k >= 2, although it contains none of the enumerators. *)
Theorem C56_complement_by_value_refuted : forall k v S, 2 <= k <= 5 -> holds (2 ^ k) v S -> (forall i, 0 <= i <= 2 ^ k -> S i = (i <=? k)) ->
  exists r, flags_not (2 ^ k) v = Done r /\ flags_bool r = true /\ forall j, 0 <= j <= k -> flags_test r (2 ^ j) = false.
Proof.
  intros k v S Hk HV HS. assert (P : 4 <= 2 ^ k <= 32) by (change 4 with (2 ^ 2); change 32 with (2 ^ 5); split; apply Z.pow_le_mono_r; lia).
  assert (L : k < 2 ^ k) by (apply Z.pow_gt_lin_r; lia).
  destruct (flags_not_set (2 ^ k) v S ltac:(lia) HV ltac:(lia)) as (r & E & HR). exists r. split; [exact E|]. split.
  - apply (flags_bool_set (2 ^ k) r _ ltac:(lia) HR). exists (2 ^ k). split; [lia|]. rewrite HS by lia. replace (2 ^ k <=? k) with false by lia. reflexivity.
  - intros j Hj. unfold flags_test. apply Z.eqb_neq. intros X. assert (B : Z.testbit (Z.land r (2 ^ j)) j = true) by (rewrite X; apply Z.pow2_bits_true; lia).
    rewrite Z.land_spec, (proj2 HR j) in B by lia. rewrite HS in B by lia. replace (j <=? k) with true in B by lia. discriminate.
Qed.
Print Assumptions C56_complement_by_value_refuted.
Example C56_nonvacuous :
  (* (A | C) & ~C, A ^ A, x = A|C; x.Clear(B|C) on an enum of 3; the complement in an 8-bit field *)
  eval 2 true (XAnd (XEnumOr 0 2) (XEnumNot 2)) = Done 1 /\ eval 2 true (XEnumXor 0 0) = Done 0 /\ eval 2 true (XClear (XEnumOr 0 2) (XEnumOr 1 2)) = Done 1 /\
  eval 2 true (XNot (XEnum 1)) = Done 5 /\ eval 31 true (XNot (XEnum 31)) = Done 0x7FFFFFFF /\ eval 8 true (XEnumNot 0) = Done 0x1FE /\
  flags_test 5 1 = true /\ flags_test 5 3 = false /\
  (* the enum of tests/src/FlagTests.cpp: A = 1, B = 2, C = 4, Count = 5 *)
  eval 4 false (XNot (XOr (XEnumOr 1 2) (XEnum 4))) = Done 24.
Proof. vm_compute. repeat split. Qed.

(** *** C57 *)
Theorem C57_iteration : forall mx v S, 0 <= mx <= 63 -> holds mx v S -> flags_list mx true v = Done (elements mx S).
Proof. intros mx v S Hm HV. rewrite (flags_list_spec mx true v S Hm ltac:(discriminate) HV). f_equal. unfold yields. apply map_id. Qed.
Print Assumptions C57_iteration.
(** Enumerators declared by value: the iterator yields the single-bit values in increasing order. *)
Theorem C57_iteration_by_value : forall mx v S, 0 <= mx <= 31 -> holds mx v S -> flags_list mx false v = Done (map (fun i => 2 ^ i) (elements mx S)).
Proof. intros mx v S Hm HV. exact (flags_list_spec mx false v S ltac:(lia) ltac:(lia) HV). Qed.
Print Assumptions C57_iteration_by_value.
Theorem C57_count : forall mx v S, 0 <= mx <= 63 -> holds mx v S -> flags_count mx v = length (elements mx S).
Proof. exact flags_count_spec. Qed.
Print Assumptions C57_count.
(** [elements] is the increasing list, without repetition, of the members. *)
Theorem C57_elements : forall mx S, (forall e, In e (elements mx S) <-> 0 <= e <= mx /\ S e = true) /\
  forall i j, (i < j < length (elements mx S))%nat -> nth i (elements mx S) 0 < nth j (elements mx S) 0.
Proof.
  intros mx S. split.
  - intros e. unfold elements. rewrite filter_In, in_map_iff. split.
    + intros ((x & <- & Hx) & H). apply in_seq in Hx. split; [lia | exact H].
    + intros (H1 & H2). split; [|exact H2]. exists (Z.to_nat e). split; [lia|]. apply in_seq. lia.
  - unfold elements. generalize (Z.to_nat (mx + 1)) as n, 0%nat as a. induction n as [|n IH]; intros a; cbn [seq map filter]; [cbn; lia|].
    assert (IN : forall k b, (k < length (filter S (map Z.of_nat (seq b n))))%nat -> Z.of_nat b <= nth k (filter S (map Z.of_nat (seq b n))) 0).
    { intros k b Hk. pose proof (nth_In _ 0 Hk) as H. apply filter_In in H. destruct H as (H & _). apply in_map_iff in H. destruct H as (x & <- & Hx). apply in_seq in Hx. lia. }
    destruct (S (Z.of_nat a)); [|apply IH]. intros i j Hij. cbn [length] in Hij. destruct j as [|j]; [lia|]. destruct i as [|i]; cbn [nth].
    + specialize (IN j (Datatypes.S a) ltac:(lia)). lia.
    + apply IH. lia.
Qed.
Print Assumptions C57_elements.
(** The end iterator can neither be read nor incremented. *)
Theorem C57_end : forall mx auto, 0 <= mx <= 63 -> iter_next mx flags_end = Fault FAssert /\ iter_deref mx auto flags_end = Fault FAssert.
Proof. exact iter_end. Qed.
Print Assumptions C57_end.
Example C57_nonvacuous : flags_list 31 true 0x80000005 = Done [0; 2; 31] /\ flags_count 31 0x80000005 = 3%nat /\ flags_list 4 false 7 = Done [1; 2; 4] /\ flags_list 2 true 0 = Done [] /\
  holds 31 0x80000005 (Z.testbit 0x80000005).
Proof. repeat split; reflexivity || lia. Qed.

(** *** C58 *)
(** No Flags object can be made from an enumerator of value 32 or more: the [1U <<] is undefined. *)
Theorem C58_high_enumerator_refuted : forall mx e, 32 <= e <= mx -> mx <= 63 -> flags_of_enum mx true e = Fault FUB.
Proof. intros mx e He Hm. apply flags_of_enum_high; lia. Qed.
Print Assumptions C58_high_enumerator_refuted.
(** With 64 enumerators the mask is an undefined shift (the class does not compile). *)
Theorem C58_sixty_four_refuted : ValueMask 63 = Fault FUB /\ forall v f, flags_not 63 v = Fault FUB /\ flags_xor 63 v f = Fault FUB /\ flags_xor_assign 63 v f = Fault FUB.
Proof. repeat split; reflexivity. Qed.
Print Assumptions C58_sixty_four_refuted.
(** Enumerators declared by value: the iterator cannot read a flag beyond the 32nd bit. *)
Theorem C58_iterate_by_value_refuted : forall mx v, 32 <= mx <= 63 -> 0 < v < 2 ^ (mx + 1) -> (forall i, 0 <= i < 32 -> Z.testbit v i = false) ->
  iter_deref mx false v = Fault FUB.
Proof. exact iter_deref_high. Qed.
Print Assumptions C58_iterate_by_value_refuted.
(** What does hold up to 63 enumerators: expressions naming only enumerators below 32. *)
Theorem C58_low_enumerators_partial : forall mx auto x, 0 <= mx <= 62 -> enums (fun e => 0 <= e <= mx /\ (auto = true -> e < 32)) x ->
  exists v, eval mx auto x = Done v /\ holds mx v (denote auto x).
Proof. exact eval_set. Qed.
Print Assumptions C58_low_enumerators_partial.
(** Flags built from bitfields instead of enumerators: the set operations are right up to 63 enumerators. *)
Theorem C58_sets_partial : forall mx v f S T, 0 <= mx <= 62 -> holds mx v S -> holds mx f T ->
  holds mx (flags_and mx v f) (fun i => S i && T i) /\ holds mx (flags_or mx v f) (fun i => S i || T i) /\ holds mx (flags_clear mx v f) (fun i => S i && negb (T i)) /\
  (exists r, flags_not mx v = Done r /\ holds mx r (fun i => negb (S i))) /\ (exists r, flags_xor mx v f = Done r /\ holds mx r (fun i => xorb (S i) (T i))).
Proof.
  intros mx v f S T Hm HV HF. assert (Hm' : 0 <= mx <= 63) by lia.
  split; [now apply flags_and_set|]. split; [now apply flags_or_set|]. split; [now apply flags_clear_set|].
  split; [apply flags_not_set | apply flags_xor_set]; trivial; lia.
Qed.
Print Assumptions C58_sets_partial.
Example C58_nonvacuous : eval 40 true (XEnum 31) = Done 0x80000000 /\ eval 40 true (XNot (XEnum 0)) = Done 0x1FFFFFFFFFE /\ eval 40 true (XEnum 40) = Fault FUB /\
  flags_list 40 true 0x10000000000 = Done [40] /\ flags_list 40 false 0x10000000000 = Fault FUB.
Proof. vm_compute. repeat split. Qed.
