(** Property C152: flags made from numbers. *)
From Verif Require Import Base CInt MathModel MathProofs MathMisc FlagsSpec FlagsModel FlagsProofs FlagsValueModel.
Open Scope Z_scope.

(** The number of bits that a Flags object stores. *)
Definition stored (mx : Z) : Z := if mx <? 8 then 8 else if mx <? 16 then 16 else if mx <? 32 then 32 else 64.
Lemma stored_wid mx : wid (BitField mx) = stored mx.
Proof. unfold BitField, stored. destruct (Z.leb_spec 32 mx); destruct (Z.leb_spec 16 mx); destruct (Z.leb_spec 8 mx); destruct (Z.ltb_spec mx 8); destruct (Z.ltb_spec mx 16); destruct (Z.ltb_spec mx 32); try (exfalso; lia); reflexivity. Qed.
Lemma same_field mx : 0 <= mx <= 63 -> BitField (stored mx - 1) = BitField mx.
Proof. intros H. unfold BitField, stored. destruct (Z.leb_spec 32 mx); destruct (Z.leb_spec 16 mx); destruct (Z.leb_spec 8 mx); destruct (Z.ltb_spec mx 8); destruct (Z.ltb_spec mx 16); destruct (Z.ltb_spec mx 32); try (exfalso; lia); reflexivity. Qed.
Lemma stored_facts mx : 0 <= mx <= 63 -> mx < stored mx <= 64 /\ 8 <= stored mx.
Proof. intros H. destruct (bitfield_facts mx H) as (_ & _ & A & B). rewrite stored_wid in A, B. lia. Qed.

(** The stored number: the value modulo the width of the field. *)
Theorem C152_stored : forall mx z, 0 <= mx <= 63 -> flags_of_value mx z = z mod 2 ^ stored mx.
Proof. intros mx z H. unfold flags_of_value. rewrite cast_unsigned_mod by apply (bitfield_facts mx H). now rewrite stored_wid. Qed.
(** A number comes back as it was, if the field and the type can hold it. *)
Theorem C152_back : forall mx t z, 0 <= mx <= 63 -> In t int_types -> 0 <= z < 2 ^ stored mx -> z <= tmax t -> flags_to_int t (flags_of_value mx z) = z.
Proof.
  intros mx t z H Ht HZ HT. rewrite C152_stored by exact H. rewrite Z.mod_small by exact HZ. apply (flags_to_int_id (stored mx - 1) t z (Z.testbit z)); [pose proof (stored_facts mx H); lia | exact Ht | | exact HT]. split; [now replace (stored mx - 1 + 1) with (stored mx) by lia | reflexivity].
Qed.
(** It is a set of enumerators exactly when no bit above the greatest enumerator is set. *)
Theorem C152_set_exactly : forall mx z, 0 <= mx <= 63 -> ((exists S, holds mx (flags_of_value mx z) S) <-> forall i, mx < i < stored mx -> Z.testbit z i = false).
Proof.
  intros mx z H. pose proof (stored_facts mx H) as SF. destruct (bitfield_facts mx H) as (Ht & HS & HM & HW). split.
  - intros (S & HH) i Hi. pose proof (holds_high mx _ S i HH ltac:(lia)) as K. unfold flags_of_value in K. rewrite cast_bits in K by (trivial; lia). rewrite stored_wid in K. replace (i <? stored mx) with true in K by lia. exact K.
  - intros K. exists (Z.testbit z). apply holds_intro; [exact H|]. intros i Hi. rewrite stored_wid in Hi. destruct (Z.leb_spec i mx); [reflexivity | apply K; lia].
Qed.
Theorem C152_full_fields : forall mx z, In mx [7; 15; 31; 63] -> exists S, holds mx (flags_of_value mx z) S.
Proof. intros mx z H. apply C152_set_exactly; [cbn in H; lia|]. cbn in H. destruct H as [<-|[<-|[<-|[<-|[]]]]]; unfold stored; cbn; intros i Hi; lia. Qed.

(** Iteration and Count see all bits that are stored. *)
Theorem C152_iteration : forall mx v, 0 <= mx <= 63 -> 0 <= v < 2 ^ stored mx ->
  flags_list mx true v = Done (elements (stored mx - 1) (Z.testbit v)) /\ flags_count mx v = length (elements (stored mx - 1) (Z.testbit v)) /\
  (mx < 32 -> flags_list mx false v = Done (map (fun i => 2 ^ i) (elements (stored mx - 1) (Z.testbit v)))).
Proof.
  intros mx v H HV. pose proof (stored_facts mx H) as SF. assert (HH : holds (stored mx - 1) v (Z.testbit v)) by (split; [now replace (stored mx - 1 + 1) with (stored mx) by lia | reflexivity]).
  assert (L : forall auto, flags_list mx auto v = flags_list (stored mx - 1) auto v).
  { intros auto. unfold flags_list. generalize (flags_begin v) as it. generalize 64%nat as fuel. induction fuel as [|fuel IH]; intros it; cbn [iterate]; [reflexivity|]. unfold iter_deref, iter_next. rewrite (same_field mx H). destruct (it =? flags_end); [reflexivity|]. destruct (assert _); cbn [bind]; [|reflexivity]. destruct (if auto then _ else _); cbn [bind]; [|reflexivity]. destruct (ClearBit _ _ _); cbn [bind]; [|reflexivity]. now rewrite IH. }
  split; [|split].
  - rewrite L. rewrite (flags_list_spec (stored mx - 1) true v _ ltac:(lia) ltac:(discriminate) HH). f_equal. erewrite map_ext; [apply map_id|]. reflexivity.
  - rewrite <- (flags_count_spec (stored mx - 1) v _ ltac:(lia) HH). unfold flags_count. now rewrite (same_field mx H).
  - intros HM. rewrite L. apply (flags_list_spec (stored mx - 1) false v _ ltac:(lia)); [|exact HH]. intros _. unfold stored. destruct (Z.ltb_spec mx 8); [lia|]. destruct (Z.ltb_spec mx 16); [lia|]. destruct (Z.ltb_spec mx 32); lia.
Qed.
Theorem C152_iteration_refuted : forall mx, 0 <= mx <= 62 -> ~ In mx [7; 15; 31] -> flags_list mx true (flags_of_value mx (2 ^ (mx + 1))) = Done [mx + 1] /\ flags_count mx (flags_of_value mx (2 ^ (mx + 1))) = 1%nat.
Proof.
  intros mx H N. assert (SF : mx + 1 < stored mx) by (cbn in N; unfold stored; destruct (Z.ltb_spec mx 8); [lia|]; destruct (Z.ltb_spec mx 16); [lia|]; destruct (Z.ltb_spec mx 32); lia).
  assert (HV : 0 <= 2 ^ (mx + 1) < 2 ^ stored mx) by (split; [apply Z.pow_nonneg; lia | apply Z.pow_lt_mono_r; lia]). rewrite C152_stored by lia. rewrite Z.mod_small by exact HV. destruct (C152_iteration mx _ ltac:(lia) HV) as (L & C & _). rewrite L, C.
  assert (E : elements (stored mx - 1) (Z.testbit (2 ^ (mx + 1))) = [mx + 1]); [|rewrite E; split; reflexivity].
  unfold elements. replace (stored mx - 1 + 1) with (stored mx) by lia. set (m := Z.to_nat (mx + 1)). replace (Z.to_nat (stored mx)) with (m + S (Z.to_nat (stored mx) - m - 1))%nat by lia. rewrite seq_app, map_app, filter_app. cbn [seq map filter Nat.add]. replace (Z.of_nat m) with (mx + 1) by lia. rewrite Z.pow2_bits_true by lia.
  rewrite filter_none. rewrite filter_none; [reflexivity|].
  - intros i Hi. apply in_map_iff in Hi. destruct Hi as (k & <- & Hk). apply in_seq in Hk. apply Z.pow2_bits_false. lia.
  - intros i Hi. apply in_map_iff in Hi. destruct Hi as (k & <- & Hk). apply in_seq in Hk. apply Z.pow2_bits_false. lia.
Qed.

(** ~~f, f ^ 0 and f & ~0 keep the enumerators and drop the other bits. *)
Lemma mod_bits v n i : 0 <= n -> 0 <= i -> Z.testbit (v mod 2 ^ n) i = (i <? n) && Z.testbit v i.
Proof. intros Hn Hi. destruct (Z.ltb_spec i n); cbn [andb]; [apply Z.mod_pow2_bits_low; lia | apply Z.mod_pow2_bits_high; lia]. Qed.
Lemma not_bits mx v : 0 <= mx <= 62 -> exists r, flags_not mx v = Done r /\ forall i, 0 <= i -> Z.testbit r i = (i <=? mx) && negb (Z.testbit v i).
Proof.
  intros H. destruct (bitfield_facts mx ltac:(lia)) as (Ht & HS & HM & HW). unfold flags_not. rewrite ValueMask_done by exact H. cbn [bind]. eexists. split; [reflexivity|]. intros i Hi. rewrite cast_bits, Z.land_spec, mask_bits by (trivial; lia). destruct (Z.leb_spec i mx).
  - replace (i <? wid (BitField mx)) with true by lia. replace (i <? mx + 1) with true by lia. rewrite bnot_bits by (trivial; lia). now rewrite andb_true_r.
  - replace (i <? mx + 1) with false by lia. now rewrite !andb_false_r.
Qed.
Theorem C152_cleaned : forall mx v, 0 <= mx <= 62 -> 0 <= v < 2 ^ stored mx ->
  (r <- flags_not mx v ;; flags_not mx r) = Done (v mod 2 ^ (mx + 1)) /\ flags_xor mx v 0 = Done (v mod 2 ^ (mx + 1)) /\ (m <- flags_not mx 0 ;; Done (flags_and mx v m)) = Done (v mod 2 ^ (mx + 1)) /\
  flags_or mx v 0 = v /\ flags_and mx v v = v.
Proof.
  intros mx v H HV. destruct (bitfield_facts mx ltac:(lia)) as (Ht & HS & HM & HW). split; [|split; [|split; [|split]]].
  - destruct (not_bits mx v H) as (r & -> & B). cbn [bind]. destruct (not_bits mx r H) as (q & -> & B'). f_equal. apply Z.bits_inj'. intros i Hi. rewrite B', B, mod_bits by lia. destruct (Z.leb_spec i mx); [replace (i <? mx + 1) with true by lia; cbn [andb]; apply negb_involutive | now replace (i <? mx + 1) with false by lia].
  - unfold flags_xor. rewrite ValueMask_done by exact H. cbn [bind]. f_equal. apply Z.bits_inj'. intros i Hi. rewrite Z.lxor_0_r, cast_bits, Z.land_spec, mask_bits, mod_bits by (trivial; lia). destruct (Z.ltb_spec i (mx + 1)); [replace (i <? wid (BitField mx)) with true by lia; cbn [andb]; apply andb_true_r | now rewrite !andb_false_r].
  - destruct (not_bits mx 0 H) as (m & -> & B). cbn [bind]. f_equal. unfold flags_and. apply Z.bits_inj'. intros i Hi. rewrite cast_bits, Z.land_spec, B, Z.bits_0, mod_bits by (trivial; lia). destruct (Z.leb_spec i mx); [replace (i <? wid (BitField mx)) with true by lia; replace (i <? mx + 1) with true by lia; cbn [andb negb]; apply andb_true_r | replace (i <? mx + 1) with false by lia; now rewrite !andb_false_r].
  - unfold flags_or. rewrite Z.lor_0_r, cast_unsigned_mod, stored_wid by exact HS. now apply Z.mod_small.
  - unfold flags_and. rewrite Z.land_diag, cast_unsigned_mod, stored_wid by exact HS. now apply Z.mod_small.
Qed.
(** So ~~f == f and (f ^ 0) == f exactly for sets of enumerators. *)
Theorem C152_involution_exactly : forall mx v, 0 <= mx <= 62 -> 0 <= v < 2 ^ stored mx -> ((r <- flags_not mx v ;; flags_not mx r) = Done v <-> exists S, holds mx v S) /\ (flags_xor mx v 0 = Done v <-> exists S, holds mx v S).
Proof.
  intros mx v H HV. destruct (C152_cleaned mx v H HV) as (E1 & E2 & _). rewrite E1, E2. assert (K : Done (v mod 2 ^ (mx + 1)) = Done v <-> exists S, holds mx v S); [|split; exact K]. assert (P : 0 < 2 ^ (mx + 1)) by (apply Z.pow_pos_nonneg; lia). split.
  - intros E. injection E as E. exists (Z.testbit v). split; [|reflexivity]. pose proof (Z.mod_pos_bound v (2 ^ (mx + 1)) P). lia.
  - intros (S & B & _). now rewrite Z.mod_small.
Qed.

(** Flags with the same enumerators: equal up to the other bits, while == compares these too. *)
Lemma test_bit v e : 0 <= v -> 0 <= e -> flags_test v (2 ^ e) = Z.testbit v e.
Proof.
  intros Hv He. unfold flags_test. destruct (Z.testbit v e) eqn:T.
  - apply Z.eqb_eq. apply Z.bits_inj'. intros i Hi. rewrite Z.land_spec. destruct (Z.eq_dec e i) as [->|D]; [rewrite Z.pow2_bits_true, T by lia; reflexivity | rewrite Z.pow2_bits_false by lia; apply andb_false_r].
  - apply Z.eqb_neq. intros E. apply (f_equal (fun x => Z.testbit x e)) in E. rewrite Z.land_spec, T, Z.pow2_bits_true in E by lia. discriminate.
Qed.
Theorem C152_same_enumerators : forall mx v f, 0 <= mx -> 0 <= v -> 0 <= f -> ((forall e, 0 <= e <= mx -> flags_test v (2 ^ e) = flags_test f (2 ^ e)) <-> v mod 2 ^ (mx + 1) = f mod 2 ^ (mx + 1)).
Proof.
  intros mx v f H Hv Hf. split.
  - intros T. apply Z.bits_inj'. intros i Hi. rewrite !mod_bits by lia. destruct (Z.ltb_spec i (mx + 1)); cbn [andb]; [|reflexivity]. rewrite <- !test_bit by lia. apply T. lia.
  - intros E e He. rewrite !test_bit by lia. apply (f_equal (fun x => Z.testbit x e)) in E. rewrite !mod_bits in E by lia. replace (e <? mx + 1) with true in E by lia. exact E.
Qed.
Theorem C152_equality_refuted : forall mx, 0 <= mx <= 62 -> ~ In mx [7; 15; 31] -> let f := flags_of_value mx (2 ^ (mx + 1)) in
  (forall e, 0 <= e <= mx -> flags_test f (2 ^ e) = flags_test 0 (2 ^ e)) /\ flags_eq f 0 = false /\ flags_bool f = true.
Proof.
  intros mx H N f. assert (SF : mx + 1 < stored mx) by (cbn in N; unfold stored; destruct (Z.ltb_spec mx 8); [lia|]; destruct (Z.ltb_spec mx 16); [lia|]; destruct (Z.ltb_spec mx 32); lia). assert (P : 0 < 2 ^ (mx + 1)) by (apply Z.pow_pos_nonneg; lia).
  assert (F : f = 2 ^ (mx + 1)) by (unfold f; rewrite C152_stored by lia; apply Z.mod_small; split; [lia | apply Z.pow_lt_mono_r; lia]). rewrite F. split; [|split].
  - apply C152_same_enumerators; [lia..|]. rewrite Z.mod_same, Z.mod_0_l by lia. reflexivity.
  - unfold flags_eq. lia.
  - unfold flags_bool. lia.
Qed.

(** An enumeration with three values: 8 bits are stored. *)
Example C152_example : flags_of_value 2 5 = 5 /\ flags_list 2 true (flags_of_value 2 5) = Done [0; 2] /\ flags_list 2 true (flags_of_value 2 13) = Done [0; 2; 3] /\ flags_of_value 2 256 = 0 /\
  (r <- flags_not 2 13 ;; flags_not 2 r) = Done 5 /\ flags_xor 2 13 0 = Done 5 /\ flags_eq 13 5 = false /\ flags_count 2 13 = 3%nat.
Proof. repeat match goal with |- _ /\ _ => split end; vm_compute; reflexivity. Qed.
Print Assumptions C152_stored.
Print Assumptions C152_back.
Print Assumptions C152_set_exactly.
Print Assumptions C152_full_fields.
Print Assumptions C152_iteration.
Print Assumptions C152_iteration_refuted.
Print Assumptions C152_cleaned.
Print Assumptions C152_involution_exactly.
Print Assumptions C152_same_enumerators.
Print Assumptions C152_equality_refuted.
