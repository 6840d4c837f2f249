(** Proofs about FlagsModel.v. *)
From Verif Require Import Base CInt MathModel MathProofs MathMisc FlagsSpec FlagsModel.
Open Scope Z_scope.

(** What each construct of the expression language runs. *)
Fixpoint eval (mx : Z) (auto : bool) (x : expr) : outcome Z :=
  match x with
  | XEmpty => Done 0
  | XEnum e => flags_of_enum mx auto e
  | XNot a => v <- eval mx auto a ;; flags_not mx v
  | XAnd a b => v <- eval mx auto a ;; f <- eval mx auto b ;; Done (flags_and mx v f)
  | XOr a b => v <- eval mx auto a ;; f <- eval mx auto b ;; Done (flags_or mx v f)
  | XXor a b => v <- eval mx auto a ;; f <- eval mx auto b ;; flags_xor mx v f
  | XSet a b => v <- eval mx auto a ;; f <- eval mx auto b ;; Done (flags_set mx v f)
  | XClear a b => v <- eval mx auto a ;; f <- eval mx auto b ;; Done (flags_clear mx v f)
  | XClearAll a => v <- eval mx auto a ;; Done (flags_clear_all v)
  | XOrAssign a b => v <- eval mx auto a ;; f <- eval mx auto b ;; Done (flags_or_assign mx v f)
  | XAndAssign a b => v <- eval mx auto a ;; f <- eval mx auto b ;; Done (flags_and_assign mx v f)
  | XXorAssign a b => v <- eval mx auto a ;; f <- eval mx auto b ;; flags_xor_assign mx v f
  | XEnumNot e => enum_not mx auto e
  | XEnumAnd e f => enum_and mx auto e f
  | XEnumOr e f => enum_or mx auto e f
  | XEnumXor e f => enum_xor mx auto e f
  | XEnumAndFlags e b => f <- eval mx auto b ;; enum_and_flags mx auto e f
  | XEnumOrFlags e b => f <- eval mx auto b ;; enum_or_flags mx auto e f
  | XEnumXorFlags e b => f <- eval mx auto b ;; enum_xor_flags mx auto e f
  end.

Lemma bitfield_facts mx : 0 <= mx <= 63 -> In (BitField mx) unsigned_types /\ sgn (BitField mx) = false /\ mx < wid (BitField mx) /\ 8 <= wid (BitField mx) <= 64.
Proof.
  intros H. unfold BitField. destruct (Z.leb_spec 32 mx); [cbn; intuition lia|]. destruct (Z.leb_spec 16 mx); [cbn; intuition lia|].
  destruct (Z.leb_spec 8 mx); cbn; intuition lia.
Qed.
Lemma cast_bits t z i : sgn t = false -> 0 <= wid t -> 0 <= i -> Z.testbit (cast t z) i = (i <? wid t) && Z.testbit z i.
Proof.
  intros HS HW Hi. rewrite cast_unsigned_mod by exact HS. destruct (Z.ltb_spec i (wid t)).
  - apply Z.mod_pow2_bits_low. lia.
  - apply Z.mod_pow2_bits_high. lia.
Qed.
Lemma cast_low_signed t z i : sgn t = true -> 0 <= i < wid t -> Z.testbit (cast t z) i = Z.testbit z i.
Proof.
  intros HS Hi. unfold cast. rewrite HS. destruct (Z.ltb_spec (z mod 2 ^ wid t) (2 ^ (wid t - 1))).
  - apply Z.mod_pow2_bits_low. lia.
  - rewrite neg_bits; [|lia|apply Z.mod_pos_bound, Z.pow_pos_nonneg; lia|lia]. replace (i <? wid t) with true by lia. apply Z.mod_pow2_bits_low. lia.
Qed.
Lemma bnot_bits t v i : In t unsigned_types -> 0 <= i < wid t -> Z.testbit (bnot t v) i = negb (Z.testbit v i).
Proof.
  intros Ht Hi. rewrite <- Z.lnot_spec by lia. unfold bnot, promote. destruct (unsigned_in t Ht) as (_ & HS & _).
  destruct (Z.ltb_spec (wid t) 32).
  - apply cast_low_signed; cbn; [reflexivity|lia].
  - apply cast_low; [exact HS|lia].
Qed.
Lemma mask_bits n i : 0 <= n -> 0 <= i -> Z.testbit (2 ^ n - 1) i = (i <? n).
Proof.
  intros Hn Hi. replace (2 ^ n - 1) with (Z.ones n) by (rewrite Z.ones_equiv; lia). destruct (Z.ltb_spec i n).
  - now apply Z.ones_spec_low.
  - now apply Z.ones_spec_high.
Qed.
Lemma ValueMask_done mx : 0 <= mx <= 62 -> ValueMask mx = Done (2 ^ (mx + 1) - 1).
Proof.
  intros H. unfold ValueMask, shl. destruct (bitfield_facts mx ltac:(lia)) as (Ht & HS & HM & HW).
  replace (cast u64 (mx + 1)) with (mx + 1) by (symmetry; apply cast_id; [reflexivity | unfold in_range, tmin, tmax; cbn; lia]).
  change (wid u64) with 64. replace ((0 <=? mx + 1) && (mx + 1 <? 64)) with true by lia. cbn [require bind]. f_equal.
  assert (P : 0 < 2 ^ (mx + 1) <= 2 ^ 63) by (split; [apply Z.pow_pos_nonneg; lia | apply Z.pow_le_mono_r; lia]). change (2 ^ 63) with 9223372036854775808 in P.
  rewrite Z.mul_1_l. rewrite (cast_id u64 (2 ^ (mx + 1))) by (try reflexivity; unfold in_range, tmin, tmax; cbn [sgn u64]; change (2 ^ wid u64) with 18446744073709551616; lia).
  rewrite (cast_id u64 (2 ^ (mx + 1) - 1)) by (try reflexivity; unfold in_range, tmin, tmax; cbn [sgn u64]; change (2 ^ wid u64) with 18446744073709551616; lia).
  apply cast_id; [lia|]. unfold in_range, tmin, tmax. rewrite HS. assert (2 ^ (mx + 1) <= 2 ^ wid (BitField mx)) by (apply Z.pow_le_mono_r; lia). lia.
Qed.
Lemma ValueMask_63 : ValueMask 63 = Fault FUB.
Proof. reflexivity. Qed.

(** ** Operations on sets *)
Lemma bits_bound n v : 0 <= n -> 0 <= v -> (forall i, n <= i -> Z.testbit v i = false) -> v < 2 ^ n.
Proof.
  intros Hn Hv Hb. destruct (Z.eq_dec v 0) as [->|Hz]; [apply Z.pow_pos_nonneg; lia|].
  apply Z.log2_lt_pow2; [lia|]. destruct (Z.lt_ge_cases (Z.log2 v) n) as [|H]; [assumption|]. specialize (Hb _ H). rewrite Z.bit_log2 in Hb by lia. discriminate.
Qed.
Lemma holds_high mx v S i : holds mx v S -> mx < i -> Z.testbit v i = false.
Proof. intros (HB & _) Hi. destruct (Z.lt_ge_cases i 0); [now apply Z.testbit_neg_r | apply (pow2_high v (mx + 1)); lia]. Qed.
Lemma holds_intro mx z S : 0 <= mx <= 63 ->
  (forall i, 0 <= i < wid (BitField mx) -> Z.testbit z i = (i <=? mx) && S i) -> holds mx (cast (BitField mx) z) S.
Proof.
  intros Hm Hb. destruct (bitfield_facts mx Hm) as (Ht & HS & HM & HW).
  assert (B : forall i, 0 <= i -> Z.testbit (cast (BitField mx) z) i = (i <=? mx) && S i).
  { intros i Hi. rewrite cast_bits by (trivial; lia). destruct (Z.ltb_spec i (wid (BitField mx))); cbn [andb].
    - apply Hb. lia.
    - replace (i <=? mx) with false by lia. reflexivity. }
  split.
  - pose proof (cast_in_range (BitField mx) z HS ltac:(lia)). split; [lia|]. apply bits_bound; [lia|lia|].
    intros i Hi. rewrite B by lia. replace (i <=? mx) with false by lia. reflexivity.
  - intros i Hi. rewrite B by lia. replace (i <=? mx) with true by lia. reflexivity.
Qed.
Lemma holds_bits mx v S i : holds mx v S -> 0 <= i -> Z.testbit v i = (i <=? mx) && S i.
Proof.
  intros H Hi. destruct (Z.leb_spec i mx); cbn [andb].
  - apply H. lia.
  - apply (holds_high mx v S); assumption.
Qed.
Lemma holds_empty mx : 0 <= mx -> holds mx 0 (fun _ => false).
Proof. intros H. split; [pose proof (Z.pow_pos_nonneg 2 (mx + 1)); lia | intros i _; apply Z.bits_0]. Qed.
Lemma holds_ext mx v S S' : holds mx v S -> (forall i, S i = S' i) -> holds mx v S'.
Proof. intros (HB & H) E. split; [exact HB|]. intros i Hi. now rewrite H, E. Qed.

Section Ops.
  Variables (mx v f : Z) (S T : Z -> bool).
  Hypotheses (Hm : 0 <= mx <= 63) (HV : holds mx v S) (HF : holds mx f T).
  Local Ltac bits i Hi := intros i Hi; rewrite ?Z.land_spec, ?Z.lor_spec, ?Z.lxor_spec; rewrite ?(holds_bits mx v S i HV), ?(holds_bits mx f T i HF) by lia.
  Lemma flags_or_set : holds mx (flags_or mx v f) (fun i => S i || T i).
  Proof. apply holds_intro; [exact Hm|]. bits i Hi. destruct (i <=? mx), (S i), (T i); reflexivity. Qed.
  Lemma flags_and_set : holds mx (flags_and mx v f) (fun i => S i && T i).
  Proof. apply holds_intro; [exact Hm|]. bits i Hi. destruct (i <=? mx), (S i), (T i); reflexivity. Qed.
  Lemma flags_clear_set : holds mx (flags_clear mx v f) (fun i => S i && negb (T i)).
  Proof.
    apply holds_intro; [exact Hm|]. destruct (bitfield_facts mx Hm) as (Ht & HS & HM & HW). intros i Hi. rewrite Z.land_spec, bnot_bits by assumption.
    rewrite (holds_bits mx v S i HV), (holds_bits mx f T i HF) by lia. destruct (i <=? mx), (S i), (T i); reflexivity.
  Qed.
  Hypothesis Hm2 : mx <= 62.
  Lemma flags_not_set : exists r, flags_not mx v = Done r /\ holds mx r (fun i => negb (S i)).
  Proof.
    unfold flags_not. rewrite ValueMask_done by lia. cbn [bind]. eexists. split; [reflexivity|]. apply holds_intro; [exact Hm|].
    destruct (bitfield_facts mx Hm) as (Ht & HS & HM & HW). intros i Hi. rewrite Z.land_spec, bnot_bits by assumption. rewrite mask_bits by lia.
    rewrite (holds_bits mx v S i HV) by lia. replace (i <? mx + 1) with (i <=? mx) by lia. destruct (i <=? mx), (S i); reflexivity.
  Qed.
  Lemma flags_xor_set : exists r, flags_xor mx v f = Done r /\ holds mx r (fun i => xorb (S i) (T i)).
  Proof.
    unfold flags_xor. rewrite ValueMask_done by lia. cbn [bind]. eexists. split; [reflexivity|]. apply holds_intro; [exact Hm|].
    bits i Hi. rewrite mask_bits by lia. replace (i <? mx + 1) with (i <=? mx) by lia. destruct (i <=? mx), (S i), (T i); reflexivity.
  Qed.
  Lemma flags_xor_assign_set : exists r, flags_xor_assign mx v f = Done r /\ holds mx r (fun i => xorb (S i) (T i)).
  Proof.
    unfold flags_xor_assign. rewrite ValueMask_done by lia. cbn [bind]. eexists. split; [reflexivity|]. apply holds_intro; [exact Hm|].
    destruct (bitfield_facts mx Hm) as (Ht & HS & HM & HW).
    intros i Hi. rewrite Z.land_spec, cast_bits by (trivial; lia). rewrite Z.lxor_spec, mask_bits by lia. rewrite (holds_bits mx v S i HV), (holds_bits mx f T i HF) by lia.
    replace (i <? wid (BitField mx)) with true by lia. replace (i <? mx + 1) with (i <=? mx) by lia. destruct (i <=? mx), (S i), (T i); reflexivity.
  Qed.
End Ops.

(** ** Enumerators *)
(** Which enumerators [GetFlagValue] accepts. *)
Definition enum_ok (mx : Z) (auto : bool) (e : Z) : Prop := 0 <= e <= mx /\ (auto = true -> e < 32).
Lemma flags_of_enum_set mx auto e : 0 <= mx <= 63 -> enum_ok mx auto e -> exists r, flags_of_enum mx auto e = Done r /\ holds mx r (one auto e).
Proof.
  intros Hm (He & H32). destruct (bitfield_facts mx Hm) as (Ht & HS & HM & HW).
  assert (MX : mx < 2 ^ mx) by (apply Z.pow_gt_lin_r; lia).
  assert (PW : 2 ^ mx < 2 ^ wid (BitField mx)) by (apply Z.pow_lt_mono_r; lia).
  unfold flags_of_enum, GetFlagValue. destruct auto; cbn [one].
  - rewrite (cast_id (BitField mx) e) by (try lia; unfold in_range, tmin, tmax; rewrite HS; lia).
    specialize (H32 eq_refl). unfold shl. cbn [wid u32]. replace ((0 <=? e) && (e <? 32)) with true by lia. cbn [require bind]. eexists. split; [reflexivity|].
    apply holds_intro; [exact Hm|]. intros i Hi. rewrite cast_bits by (cbn; trivial; lia). rewrite Z.mul_1_l, <- (Z.mul_1_l (2 ^ e)), <- Z.shiftl_mul_pow2, shiftl1_bits by lia.
    cbn [wid u32]. unfold one. destruct (Z.eqb_spec i e) as [->|]; [|now rewrite !andb_false_r]. rewrite !andb_true_r. lia.
  - eexists. split; [reflexivity|]. apply holds_intro; [exact Hm|]. intros i Hi. unfold one. destruct (Z.leb_spec i mx); [reflexivity|].
    cbn [andb]. apply (pow2_high e mx); lia.
Qed.
Lemma flags_of_enum_high mx e : 32 <= mx -> 32 <= e <= mx -> mx <= 63 -> flags_of_enum mx true e = Fault FUB.
Proof.
  intros H He Hm. unfold flags_of_enum, GetFlagValue, shl. destruct (bitfield_facts mx ltac:(lia)) as (Ht & HS & HM & HW).
  assert (MX : mx < 2 ^ mx) by (apply Z.pow_gt_lin_r; lia).
  assert (PW : 2 ^ mx < 2 ^ wid (BitField mx)) by (apply Z.pow_lt_mono_r; lia).
  rewrite (cast_id (BitField mx) e) by (try lia; unfold in_range, tmin, tmax; rewrite HS; lia). cbn [wid u32].
  replace ((0 <=? e) && (e <? 32)) with false by lia. reflexivity.
Qed.

Lemma eval_set mx auto x : 0 <= mx <= 62 -> enums (enum_ok mx auto) x -> exists v, eval mx auto x = Done v /\ holds mx v (denote auto x).
Proof.
  intros Hm. assert (Hm63 : 0 <= mx <= 63) by lia. induction x; cbn [enums eval denote]; intros HE;
    repeat match goal with
    | H : enums _ _ /\ _ |- _ => destruct H
    | H : enum_ok _ _ _ /\ _ |- _ => destruct H
    | IH : ?P -> exists _, _, H : ?P |- _ => let v := fresh "v" in let E := fresh "E" in let K := fresh "K" in specialize (IH H); destruct IH as (v & E & K)
    end; try rewrite E; try rewrite E0; cbn [bind];
    unfold enum_not, enum_and, enum_or, enum_xor, enum_and_flags, enum_or_flags, enum_xor_flags;
    repeat match goal with
    | H : enum_ok mx auto ?e |- _ => let v := fresh "u" in let E := fresh "F" in let K := fresh "J" in
        destruct (flags_of_enum_set mx auto e Hm63 H) as (v & E & K); clear H
    end; try rewrite F; try rewrite F0; cbn [bind];
    try (eexists; split; [reflexivity|]).
  - now apply holds_empty.
  - exact J.
  - apply flags_not_set; trivial; lia.
  - now apply flags_and_set.
  - now apply flags_or_set.
  - apply flags_xor_set; trivial; lia.
  - now apply flags_or_set.
  - now apply flags_clear_set.
  - now apply holds_empty.
  - now apply flags_or_set.
  - now apply flags_and_set.
  - apply flags_xor_assign_set; trivial; lia.
  - apply flags_not_set; trivial; lia.
  - now apply flags_and_set.
  - now apply flags_or_set.
  - apply flags_xor_set; trivial; lia.
  - eapply holds_ext; [apply flags_and_set; eassumption|]. intros i. apply andb_comm.
  - eapply holds_ext; [apply flags_or_set; eassumption|]. intros i. apply orb_comm.
  - destruct (flags_xor_set mx v u _ _ Hm63 K J ltac:(lia)) as (r & ER & HR). exists r. split; [exact ER|].
    eapply holds_ext; [exact HR|]. intros i. apply xorb_comm.
Qed.

(** ** Observers *)
Lemma flags_test_set mx v f S T : holds mx v S -> holds mx f T -> flags_test v f = true <-> forall i, 0 <= i <= mx -> T i = true -> S i = true.
Proof.
  intros HV HF. unfold flags_test. rewrite Z.eqb_eq. split.
  - intros E i Hi HT. pose proof (proj2 HF i Hi) as B. rewrite <- E, Z.land_spec, HT in B. apply andb_true_iff in B. rewrite <- (proj2 HV i Hi). tauto.
  - intros H. apply Z.bits_inj'. intros i Hi. rewrite Z.land_spec, (holds_bits mx v S i HV Hi), (holds_bits mx f T i HF Hi).
    destruct (Z.leb_spec i mx); cbn [andb]; [|reflexivity]. destruct (T i) eqn:ET; [|now rewrite andb_false_r]. rewrite (H i) by (trivial; lia). reflexivity.
Qed.
Lemma flags_eq_set mx v f S T : holds mx v S -> holds mx f T -> flags_eq v f = true <-> forall i, 0 <= i <= mx -> S i = T i.
Proof.
  intros HV HF. unfold flags_eq. rewrite Z.eqb_eq. split.
  - intros -> i Hi. now rewrite <- (proj2 HV i Hi), <- (proj2 HF i Hi).
  - intros H. apply Z.bits_inj'. intros i Hi. rewrite (holds_bits mx v S i HV Hi), (holds_bits mx f T i HF Hi).
    destruct (Z.leb_spec i mx); cbn [andb]; [apply H; lia | reflexivity].
Qed.
Lemma flags_bool_set mx v S : 0 <= mx -> holds mx v S -> flags_bool v = true <-> exists i, 0 <= i <= mx /\ S i = true.
Proof.
  intros Hm HV. unfold flags_bool. rewrite negb_true_iff, Z.eqb_neq. split.
  - intros H. destruct (nonzero_bit v (mx + 1)) as (i & Hi & Hb); [lia|destruct HV; lia|]. exists i. split; [lia|]. now rewrite <- (proj2 HV i) by lia.
  - intros (i & Hi & Hb) ->. rewrite <- (proj2 HV i Hi), Z.bits_0 in Hb. discriminate.
Qed.
Lemma flags_to_int_id mx t v S : 0 <= mx <= 63 -> In t int_types -> holds mx v S -> v <= tmax t -> flags_to_int t v = v.
Proof.
  intros Hm Ht (HB & _) Hv. apply cast_id; [destruct (type_widths t Ht) as [->|[->|[->| ->]]]; lia|]. unfold in_range.
  enough (tmin t <= 0) by lia. unfold tmin. destruct (sgn t); [|lia]. pose proof (Z.pow_nonneg 2 (wid t - 1)). lia.
Qed.

(** ** Iteration *)
Definition bits_up (k n : nat) : list Z := map Z.of_nat (seq k n).
Lemma bits_split k n j : (j <= n)%nat -> bits_up k n = bits_up k j ++ bits_up (k + j) (n - j).
Proof. intros H. unfold bits_up. rewrite <- map_app, <- seq_app. do 2 f_equal. lia. Qed.
Lemma filter_none {A} (f : A -> bool) l : (forall x, In x l -> f x = false) -> filter f l = [].
Proof. intros H. induction l as [|x l IH]; [reflexivity|]. cbn. rewrite (H x) by now left. apply IH. intros y Hy. apply H. now right. Qed.
Lemma filter_eq {A} (f g : A -> bool) l : (forall x, In x l -> f x = g x) -> filter f l = filter g l.
Proof. intros H. induction l as [|x l IH]; [reflexivity|]. cbn. rewrite (H x) by now left. rewrite IH; [reflexivity|]. intros y Hy. apply H. now right. Qed.
Lemma in_bits_up k n i : In i (bits_up k n) <-> Z.of_nat k <= i < Z.of_nat (k + n).
Proof.
  unfold bits_up. rewrite in_map_iff. split.
  - intros (x & <- & Hx). apply in_seq in Hx. lia.
  - intros H. exists (Z.to_nat i). split; [lia|]. apply in_seq. lia.
Qed.
(** What the iterator yields for the bit [i]. *)
Definition yields (auto : bool) (i : Z) : Z := if auto then i else 2 ^ i.
Lemma iterate_spec mx auto : 0 <= mx <= 63 -> (auto = false -> mx < 32) ->
  forall fuel k v, (Z.to_nat (mx + 1) - k <= fuel)%nat -> (k <= Z.to_nat (mx + 1))%nat -> 0 <= v < 2 ^ (mx + 1) -> (forall i, 0 <= i < Z.of_nat k -> Z.testbit v i = false) ->
  iterate fuel mx auto v 0 = Done (map (yields auto) (filter (Z.testbit v) (bits_up k (Z.to_nat (mx + 1) - k)))).
Proof.
  intros Hm Ha. destruct (bitfield_facts mx Hm) as (Ht & HS & HM & HW).
  assert (PW : 2 ^ (mx + 1) <= 2 ^ wid (BitField mx)) by (apply Z.pow_le_mono_r; lia).
  induction fuel as [|fuel IH]; intros k v HF HK HV HL.
  - cbn [iterate]. replace v with 0. 2:{ symmetry. apply Z.bits_inj'. intros i Hi. rewrite Z.bits_0. destruct (Z.lt_ge_cases i (mx + 1)); [apply HL; lia | apply (pow2_high v (mx + 1)); lia]. }
    rewrite Z.eqb_refl. replace (Z.to_nat (mx + 1) - k)%nat with 0%nat by lia. reflexivity.
  - cbn [iterate]. destruct (Z.eqb_spec v 0) as [->|Hz].
    + rewrite filter_none; [reflexivity|]. intros i _. apply Z.bits_0.
    + assert (HR : in_range (BitField mx) v = true) by (unfold in_range, tmin, tmax; rewrite HS; lia).
      unfold iter_deref, iter_next. pose proof (FindFirstBit_rt_spec (BitField mx) v (proj1 (unsigned_in _ Ht)) HR) as SP.
      destruct SP as [(S1 & S2)|(S1 & S2 & S3)].
      { exfalso. apply Hz. now apply (zero_low (BitField mx)); [apply unsigned_in|..]. }
      set (r := Z.of_nat (FindFirstBit_rt (BitField mx) v)) in *.
      assert (RB : Z.of_nat k <= r - 1 <= mx).
      { split.
        - destruct (Z.lt_ge_cases (r - 1) (Z.of_nat k)); [|lia]. rewrite HL in S2 by lia. discriminate.
        - destruct (Z.lt_ge_cases mx (r - 1)); [|lia]. rewrite (pow2_high v (mx + 1)) in S2 by lia. discriminate. }
      replace (r =? 0) with false by lia. cbn [negb assert bind].
      assert (ED : (if auto then Done (r - 1) else shl u32 1 (r - 1)) = Done (yields auto (r - 1))).
      { destruct auto; [reflexivity|]. specialize (Ha eq_refl). unfold shl. cbn [wid u32]. replace ((0 <=? r - 1) && (r - 1 <? 32)) with true by lia. cbn [require bind yields].
        f_equal. rewrite Z.mul_1_l. apply cast_id; [reflexivity|]. unfold in_range, tmin, tmax. cbn [sgn wid u32].
        assert (0 < 2 ^ (r - 1) <= 2 ^ 31) by (split; [apply Z.pow_pos_nonneg; lia | apply Z.pow_le_mono_r; lia]). change (2 ^ 31) with 2147483648 in *. change (2 ^ 32) with 4294967296. lia. }
      rewrite ED. cbn [bind].
      assert (MX : r - 1 < 2 ^ (mx + 1)) by (apply Z.le_lt_trans with (mx + 1); [lia | apply Z.pow_gt_lin_r; lia]).
      rewrite (cast_id (BitField mx) (r - 1)) by (try lia; unfold in_range, tmin, tmax; rewrite HS; lia).
      destruct (ClearBit_spec (BitField mx) v (r - 1) Ht ltac:(lia)) as (v' & EC & RC & BC). rewrite EC. cbn [bind].
      assert (BC' : forall i, 0 <= i -> Z.testbit v' i = if i =? r - 1 then false else Z.testbit v i).
      { intros i Hi. destruct (Z.lt_ge_cases i (wid (BitField mx))); [apply BC; lia|]. replace (i =? r - 1) with false by lia.
        unfold tmax in RC. rewrite HS in RC. rewrite (pow2_high v' (wid (BitField mx))) by lia. now rewrite (pow2_high v (wid (BitField mx))) by lia. }
      assert (HV' : 0 <= v' < 2 ^ (mx + 1)).
      { split; [lia|]. apply bits_bound; [lia|lia|]. intros i Hi. rewrite BC' by lia. destruct (i =? r - 1); [reflexivity|]. apply (pow2_high v (mx + 1)); lia. }
      rewrite (IH (Z.to_nat r) v'); [cbn [bind]|lia|lia|exact HV'|].
      2:{ intros i Hi. rewrite BC' by lia. destruct (Z.eqb_spec i (r - 1)); [reflexivity|]. apply S3. lia. }
      f_equal. rewrite (bits_split k (Z.to_nat (mx + 1) - k) (Z.to_nat r - k)) by lia. rewrite filter_app, map_app.
      rewrite (bits_split k (Z.to_nat r - k) (Z.to_nat r - k - 1)) by lia. rewrite filter_app.
      rewrite (filter_none (Z.testbit v) (bits_up k (Z.to_nat r - k - 1))).
      2:{ intros i Hi. apply in_bits_up in Hi. apply S3. lia. }
      replace (Z.to_nat r - k - (Z.to_nat r - k - 1))%nat with 1%nat by lia. unfold bits_up at 2. cbn [seq map app filter].
      replace (Z.of_nat (k + (Z.to_nat r - k - 1))) with (r - 1) by lia. rewrite S2. cbn [map app]. f_equal. f_equal.
      replace (k + (Z.to_nat r - k))%nat with (Z.to_nat r) by lia. replace (Z.to_nat (mx + 1) - k - (Z.to_nat r - k))%nat with (Z.to_nat (mx + 1) - Z.to_nat r)%nat by lia.
      apply filter_eq. intros i Hi. apply in_bits_up in Hi. rewrite BC' by lia. replace (i =? r - 1) with false by lia. reflexivity.
Qed.
Lemma flags_list_spec mx auto v S : 0 <= mx <= 63 -> (auto = false -> mx < 32) -> holds mx v S -> flags_list mx auto v = Done (map (yields auto) (elements mx S)).
Proof.
  intros Hm Ha (HB & H). unfold flags_list, flags_begin, flags_end. rewrite (iterate_spec mx auto Hm Ha 64 0 v); [|lia|lia|exact HB|lia].
  do 2 f_equal. unfold elements. rewrite Nat.sub_0_r. apply filter_eq. intros i Hi. apply in_bits_up in Hi. apply H. lia.
Qed.
Lemma flags_count_spec mx v S : 0 <= mx <= 63 -> holds mx v S -> flags_count mx v = length (elements mx S).
Proof.
  intros Hm (HB & H). destruct (bitfield_facts mx Hm) as (Ht & HS & HM & HW). unfold flags_count.
  assert (PW : 2 ^ (mx + 1) <= 2 ^ wid (BitField mx)) by (apply Z.pow_le_mono_r; lia).
  rewrite CountBits_rt_spec; [|apply unsigned_in; exact Ht|unfold tmax; rewrite HS; lia].
  rewrite (ones_count_more (Z.to_nat (mx + 1)) (Z.to_nat (wid (BitField mx)))); [|rewrite Z2Nat.id by lia; exact HB|lia].
  unfold ones_count, elements. rewrite filter_map_length. f_equal. apply filter_eq. intros i Hi. apply in_seq in Hi. apply H. lia.
Qed.
Lemma iter_end mx auto : 0 <= mx <= 63 -> iter_next mx 0 = Fault FAssert /\ iter_deref mx auto 0 = Fault FAssert.
Proof.
  intros Hm. destruct (bitfield_facts mx Hm) as (Ht & _). unfold iter_next, iter_deref. cbn [In unsigned_types] in Ht.
  destruct Ht as [<-|[<-|[<-|[<-|[]]]]]; split; reflexivity.
Qed.
(** A flag declared by value beyond the 32nd bit cannot be read through the iterator. *)
Lemma iter_deref_high mx v : 32 <= mx <= 63 -> 0 < v < 2 ^ (mx + 1) -> (forall i, 0 <= i < 32 -> Z.testbit v i = false) -> iter_deref mx false v = Fault FUB.
Proof.
  intros Hm HV HL. destruct (bitfield_facts mx ltac:(lia)) as (Ht & HS & HM & HW).
  assert (PW : 2 ^ (mx + 1) <= 2 ^ wid (BitField mx)) by (apply Z.pow_le_mono_r; lia).
  assert (HR : in_range (BitField mx) v = true) by (unfold in_range, tmin, tmax; rewrite HS; lia).
  unfold iter_deref. destruct (FindFirstBit_rt_spec (BitField mx) v (proj1 (unsigned_in _ Ht)) HR) as [(S1 & S2)|(S1 & S2 & S3)].
  - exfalso. assert (v = 0) by now apply (zero_low (BitField mx)); [apply unsigned_in|..]. lia.
  - set (r := Z.of_nat (FindFirstBit_rt (BitField mx) v)) in *. replace (r =? 0) with false by lia. cbn [negb assert bind].
    unfold shl. cbn [wid u32]. destruct (Z.lt_ge_cases (r - 1) 32); [rewrite HL in S2 by lia; discriminate|].
    replace ((0 <=? r - 1) && (r - 1 <? 32)) with false by lia. reflexivity.
Qed.
