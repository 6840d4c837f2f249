(** Proofs about MathModel.v (second part): logarithm, powers of two, alignment. *)
From Verif Require Import Base CInt MathModel MathProofs.
Open Scope Z_scope.
Ltac Zify.zify_post_hook ::= Z.div_mod_to_equations.

(** ** Smearing the highest bit down *)
Definition orbits (v i : Z) (n : nat) : bool := existsb (fun j => Z.testbit v (i + Z.of_nat j)) (seq 0 n).

Lemma existsb_seq_split f a b s : existsb f (seq s (a + b)) = existsb f (seq s a) || existsb (fun j => f (a + j)%nat) (seq s b).
Proof.
  rewrite seq_app, existsb_app. f_equal. revert s. induction b as [|b IH]; intros s; [reflexivity|].
  cbn [seq existsb]. f_equal; [f_equal; lia|]. rewrite <- IH. reflexivity.
Qed.

Lemma existsb_ext' {A} (f g : A -> bool) l : (forall j, f j = g j) -> existsb f l = existsb g l.
Proof. intros E. induction l as [|y l IH]; cbn; [reflexivity|]. now rewrite E, IH. Qed.

Lemma smear_inv v x n : (forall i, 0 <= i -> Z.testbit x i = orbits v i n) ->
  forall i, 0 <= i -> Z.testbit (smear_step (Z.of_nat n) x) i = orbits v i (n + n).
Proof.
  intros H i Hi. unfold smear_step. rewrite Z.lor_spec, Z.shiftr_spec, !H by lia. unfold orbits.
  rewrite existsb_seq_split. f_equal. apply existsb_ext'. intros j. f_equal. lia.
Qed.

(** With enough steps every bit up to the highest one is set. *)
Lemma orbits_full v i n : 0 <= i -> 0 <= v < 2 ^ Z.of_nat n -> orbits v i n = (i <? Z.log2 v + 1) && (0 <? v).
Proof.
  intros Hi Hv. unfold orbits. apply Bool.eq_iff_eq_true. rewrite existsb_exists. split.
  - intros (j & Hj & T). assert (0 < v).
    { destruct (Z.eq_dec v 0) as [->|]; [rewrite Z.bits_0 in T; discriminate | lia]. }
    assert (i + Z.of_nat j <= Z.log2 v).
    { destruct (Z.le_gt_cases (i + Z.of_nat j) (Z.log2 v)) as [C|C]; [exact C|]. rewrite Z.bits_above_log2 in T by lia. discriminate. }
    lia.
  - intros H. assert (0 < v) by lia. assert (Z.log2 v < Z.of_nat n) by (apply Z.log2_lt_pow2; lia).
    exists (Z.to_nat (Z.log2 v - i)). split; [apply in_seq; lia|].
    replace (i + Z.of_nat (Z.to_nat (Z.log2 v - i))) with (Z.log2 v) by lia. apply Z.bit_log2. lia.
Qed.

Lemma smear_result v x n : 0 <= v < 2 ^ Z.of_nat n -> (forall i, 0 <= i -> Z.testbit x i = orbits v i n) ->
  x = if v =? 0 then 0 else 2 ^ (Z.log2 v + 1) - 1.
Proof.
  intros Hv H. pose proof (Z.log2_nonneg v). apply Z.bits_inj'. intros i Hi. rewrite H, orbits_full by assumption.
  destruct (Z.eqb_spec v 0) as [->|Hne].
  - rewrite Z.bits_0. apply andb_false_r.
  - replace (2 ^ (Z.log2 v + 1) - 1) with (Z.ones (Z.log2 v + 1)) by (rewrite Z.ones_equiv; lia).
    rewrite Z.testbit_ones_nonneg by lia. replace (0 <? v) with true by lia. apply andb_true_r.
Qed.

Lemma smear_start v : forall i, 0 <= i -> Z.testbit v i = orbits v i 1.
Proof. intros i Hi. unfold orbits. cbn [seq existsb]. rewrite orb_false_r. f_equal. lia. Qed.

Lemma smear8 v i : 0 <= i -> Z.testbit (smear_step 4 (smear_step 2 (smear_step 1 v))) i = orbits v i 8.
Proof.
  intros Hi. apply (smear_inv v _ 4); [|exact Hi]. apply (smear_inv v _ 2). apply (smear_inv v _ 1). apply smear_start.
Qed.

Lemma tmax_bound t : In t int_types -> tmax t < 2 ^ wid t.
Proof. intros Ht. each_type Ht; reflexivity. Qed.
(** ** IntegralLog2 *)
Lemma IntegralLog2_32_spec v : 0 <= v < 2 ^ 32 -> IntegralLog2_32 v = Done (Z.log2 v).
Proof.
  intros Hv. unfold IntegralLog2_32. cbv zeta.
  rewrite (smear_result v (smear_step 16 _) 32); [|exact Hv|].
  2:{ apply (smear_inv v _ 16). apply (smear_inv v _ 8). apply smear8. }
  destruct (Z.eqb_spec v 0) as [->|Hne]; [reflexivity|].
  assert (L : 0 <= Z.log2 v < 32) by (split; [apply Z.log2_nonneg | apply Z.log2_lt_pow2; lia]).
  apply z_eqb_out_true. set (k := Z.log2 v) in *.
  apply (sweep 5 0 (fun k => z_eqb_out (table s_MultiplyDeBruijnBitPosition
     (Z.shiftr (cast u32 ((2 ^ (k + 1) - 1) * 130329821)) 27)) k)); [vm_compute; reflexivity | exact L].
Qed.

Lemma word32_high v : 0 <= v < 2 ^ 64 -> word32 v 4 = v / 2 ^ 32.
Proof.
  intros Hv. unfold word32. change (cast u64 (Z.shiftl 4294967295 (4 * 8))) with (Z.shiftl (Z.ones 32) 32). change (4 * 8) with 32.
  rewrite Z.shiftr_land, Z.shiftr_shiftl_l by lia. change (32 - 32) with 0. rewrite Z.shiftl_0_r, Z.land_ones, Z.shiftr_div_pow2 by lia.
  apply Z.mod_small. lia.
Qed.
Lemma word32_low v : word32 v 0 = v mod 2 ^ 32.
Proof.
  unfold word32. change (cast u64 (Z.shiftl 4294967295 (0 * 8))) with (Z.ones 32). change (0 * 8) with 0.
  rewrite Z.shiftr_0_r. apply Z.land_ones. lia.
Qed.

(** The 64-bit version, exactly: wrong when the upper word is 1. *)
Lemma IntegralLog2_64_exact v : 0 <= v < 2 ^ 64 ->
  IntegralLog2_64 v = Done (if (v / 2 ^ 32 =? 1) then Z.log2 (v mod 2 ^ 32) else Z.log2 v).
Proof.
  intros Hv. unfold IntegralLog2_64. rewrite word32_high, word32_low by exact Hv.
  rewrite IntegralLog2_32_spec by lia. cbn [bind].
  destruct (Z.eqb_spec (v / 2 ^ 32) 1) as [E|E].
  - rewrite E. change (Z.log2 1) with 0. cbn [Z.eqb negb]. rewrite IntegralLog2_32_spec by lia. cbn [bind].
    destruct (Z.eqb_spec (Z.log2 (v mod 2 ^ 32)) 0) as [F|F]; cbn [negb]; f_equal; lia.
  - destruct (Z.eq_dec (v / 2 ^ 32) 0) as [F|F].
    + rewrite F. change (Z.log2 0) with 0. cbn [Z.eqb negb]. rewrite IntegralLog2_32_spec by lia. cbn [bind].
      assert (v mod 2 ^ 32 = v) by (apply Z.mod_small; lia). rewrite H.
      destruct (Z.eqb_spec (Z.log2 v) 0) as [G|G]; cbn [negb]; f_equal; lia.
    + assert (P : 2 <= v / 2 ^ 32) by (assert (0 <= v / 2 ^ 32) by (apply Z.div_pos; lia); lia).
      assert (1 <= Z.log2 (v / 2 ^ 32)) by (change 1 with (Z.log2 2); now apply Z.log2_le_mono).
      replace (Z.log2 (v / 2 ^ 32) =? 0) with false by lia. cbn [negb]. f_equal.
      assert (L : Z.log2 (v / 2 ^ 32) = Z.max 0 (Z.log2 v - 32)) by (rewrite <- Z.shiftr_div_pow2 by lia; apply Z.log2_shiftr; lia).
      lia.
Qed.

Lemma IntegralLog2_spec t v : In t int_types -> 0 <= v <= tmax t -> v / 2 ^ 32 <> 1 -> IntegralLog2 t v = Done (Z.log2 v).
Proof.
  intros Ht Hv H1. pose proof (tmax_bound t Ht). unfold IntegralLog2. destruct (Z.leb_spec (wid t) 32).
  - pose proof (Z.pow_le_mono_r 2 (wid t) 32). rewrite cast_id by (ranges; lia). apply IntegralLog2_32_spec. lia.
  - pose proof (type_widths t Ht). assert (W : wid t = 64) by lia. rewrite W in *.
    rewrite IntegralLog2_64_exact by lia. destruct (Z.eqb_spec (v / 2 ^ 32) 1); [contradiction | reflexivity].
Qed.

Lemma IntegralLog2_wrong t v : In t [u64; i64] -> 2 ^ 32 <= v < 2 ^ 33 -> exists r, IntegralLog2 t v = Done r /\ r < 32 /\ Z.log2 v = 32.
Proof.
  intros Ht Hv. assert (E : IntegralLog2 t v = IntegralLog2_64 v) by (destruct Ht as [<-|[<-|[]]]; reflexivity).
  rewrite E, IntegralLog2_64_exact by lia.
  replace (v / 2 ^ 32 =? 1) with true by lia. eexists. split; [reflexivity|]. split.
  - destruct (Z.eq_dec (v mod 2 ^ 32) 0) as [->|]; [reflexivity|]. apply Z.log2_lt_pow2; lia.
  - apply Z.log2_unique; lia.
Qed.
(** A negative number is taken for its two's complement pattern, widened to 32 bits. *)
Lemma IntegralLog2_negative t v : In t signed_types -> tmin t <= v < 0 -> IntegralLog2 t v = Done (if wid t <=? 32 then 31 else 63).
Proof.
  intros Ht Hv. unfold IntegralLog2. destruct (Z.leb_spec (wid t) 32) as [C|C].
  - rewrite cast_unsigned_mod by reflexivity. change (2 ^ wid u32) with (2 ^ 32).
    assert (B : 2 ^ 31 <= v mod 2 ^ 32 < 2 ^ 32) by (each_type Ht; ranges; lia).
    rewrite IntegralLog2_32_spec by lia. f_equal. apply Z.log2_unique; lia.
  - assert (B : - 2 ^ 63 <= v < 0) by (each_type Ht; ranges; lia). unfold IntegralLog2_64.
    assert (E : word32 v 4 = (v / 2 ^ 32) mod 2 ^ 32).
    { unfold word32. change (cast u64 (Z.shiftl 4294967295 (4 * 8))) with (Z.shiftl (Z.ones 32) 32). change (4 * 8) with 32.
      rewrite Z.shiftr_land, Z.shiftr_shiftl_l by lia. change (32 - 32) with 0. rewrite Z.shiftl_0_r, Z.land_ones, Z.shiftr_div_pow2 by lia. reflexivity. }
    assert (D : - 2 ^ 31 <= v / 2 ^ 32 < 0) by lia. assert (M : 2 ^ 31 <= (v / 2 ^ 32) mod 2 ^ 32 < 2 ^ 32) by (generalize dependent (v / 2 ^ 32); intros; lia).
    rewrite E, IntegralLog2_32_spec by lia. replace (Z.log2 ((v / 2 ^ 32) mod 2 ^ 32)) with 31 by (symmetry; apply Z.log2_unique; lia). reflexivity.
Qed.

(** ** Powers of two *)
Lemma land_pow2 v : 0 < v -> Z.land v (v - 1) = 0 <-> exists k, 0 <= k /\ v = 2 ^ k.
Proof.
  intros Hv. split.
  - intros H. exists (Z.log2 v). split; [apply Z.log2_nonneg|]. pose proof (Z.log2_spec v Hv) as [A B].
    destruct (Z.eq_dec v (2 ^ Z.log2 v)) as [|N]; [assumption|]. exfalso.
    assert (L : Z.log2 (v - 1) = Z.log2 v) by (apply Z.log2_unique; [apply Z.log2_nonneg | lia]).
    assert (T : Z.testbit (Z.land v (v - 1)) (Z.log2 v) = true).
    { rewrite Z.land_spec, Z.bit_log2 by lia. rewrite <- L, Z.bit_log2; trivial. pose proof (Z.log2_nonneg v).
      pose proof (Z.pow_pos_nonneg 2 (Z.log2 v) ltac:(lia) ltac:(lia)). lia. }
    rewrite H, Z.bits_0 in T. discriminate.
  - intros (k & Hk & ->). replace (2 ^ k - 1) with (Z.ones k) by (rewrite Z.ones_equiv; lia).
    rewrite Z.land_ones by lia. apply Z.mod_same. pose proof (Z.pow_pos_nonneg 2 k). lia.
Qed.

Lemma IsPow2_spec t v : In t int_types -> 0 < v <= tmax t -> exists r, IsPow2 t v = Done r /\ (r = true <-> exists k, 0 <= k /\ v = 2 ^ k).
Proof.
  intros Ht Hv. unfold IsPow2. replace (v =? 0) with false by lia. cbn [negb assert bind].
  rewrite (arith_id t) by (trivial; each_type Ht; ranges; lia). cbn [bind]. eexists. split; [reflexivity|].
  rewrite Z.eqb_eq. apply land_pow2. lia.
Qed.

(** Least power of two not below [v]. *)
Definition is_pow2_ceiling (v r : Z) : Prop := (exists k, 0 <= k /\ r = 2 ^ k) /\ v <= r /\ forall k, 0 <= k -> v <= 2 ^ k -> r <= 2 ^ k.

Lemma log2_up_ceiling v : 0 <= v -> is_pow2_ceiling v (2 ^ Z.log2_up v).
Proof.
  intros Hv. pose proof (Z.log2_up_nonneg v). split; [exists (Z.log2_up v); auto|]. split.
  - destruct (Z.le_gt_cases v 1) as [C|C].
    + pose proof (Z.pow_pos_nonneg 2 (Z.log2_up v)). lia.
    + apply (Z.log2_up_spec v C).
  - intros k Hk L. apply Z.pow_le_mono_r; [lia|]. destruct (Z.le_gt_cases v 1) as [C|C].
    + rewrite Z.log2_up_eqn0 by lia. exact Hk.
    + apply Z.log2_up_le_pow2; lia.
Qed.

Ltac widths t Ht := destruct (type_widths t Ht) as [W|[W|[W|W]]]; rewrite W; cbn [Z.ltb Z.compare Pos.compare Pos.compare_cont].
Definition smeared (w x : Z) : Z :=
  let v := smear_step 4 (smear_step 2 (smear_step 1 x)) in
  let v := if 8 <? w then smear_step 8 v else v in
  let v := if 16 <? w then smear_step 16 v else v in
  if 32 <? w then smear_step 32 v else v.
Lemma smeared_orbits t x : In t int_types -> forall i, 0 <= i -> Z.testbit (smeared (wid t) x) i = orbits x i (Z.to_nat (wid t)).
Proof.
  intros Ht. unfold smeared. widths t Ht; cbv zeta.
  - apply smear8.
  - apply (smear_inv x _ 8). apply smear8.
  - apply (smear_inv x _ 16). apply (smear_inv x _ 8). apply smear8.
  - apply (smear_inv x _ 32). apply (smear_inv x _ 16). apply (smear_inv x _ 8). apply smear8.
Qed.
Lemma smeared_nonneg t x : In t int_types -> 0 <= x <= tmax t -> smeared (wid t) x = if x =? 0 then 0 else 2 ^ (Z.log2 x + 1) - 1.
Proof.
  intros Ht Hx. apply (smear_result x _ (Z.to_nat (wid t))); [|exact (smeared_orbits t x Ht)].
  pose proof (type_widths t Ht). rewrite Z2Nat.id by lia. pose proof (tmax_bound t Ht). lia.
Qed.
(** A negative value fills up: arithmetic shifts bring copies of the sign bit everywhere. *)
Lemma smeared_negative t x : In t int_types -> in_range t x = true -> x < 0 -> smeared (wid t) x = -1.
Proof.
  intros Ht Hx Hn. pose proof (type_widths t Ht) as HW. apply Z.bits_inj'. intros i Hi. rewrite (smeared_orbits t x Ht) by exact Hi. rewrite Z.bits_m1 by exact Hi.
  unfold orbits. apply existsb_exists. exists (Z.to_nat (wid t) - 1)%nat. split; [apply in_seq; lia|].
  replace x with ((x + 2 ^ (wid t - 1)) - 2 ^ (wid t - 1)) by lia. rewrite neg_bits.
  - replace (i + Z.of_nat (Z.to_nat (wid t) - 1) <? wid t - 1) with false by lia. reflexivity.
  - lia.
  - clear HW. each_type Ht; ranges; lia.
  - lia.
Qed.
Lemma RoundToPow2_unfold t v : RoundToPow2 t v = (d <- arith t (v - 1) ;; s <- arith t (smeared (wid t) (cast t d) + 1) ;; Done (cast t s)).
Proof. reflexivity. Qed.

(** Arithmetic followed by a conversion back to an unsigned type reduces modulo its width. *)
Lemma arith_back t z : In t unsigned_types -> - 2 ^ wid t <= z <= 2 ^ wid t -> exists r, arith t z = Done r /\ cast t r = z mod 2 ^ wid t.
Proof.
  intros Ht Hz. destruct (unsigned_in t Ht) as (Ht' & HS & HW).
  destruct (Z.le_gt_cases (wid t) 16) as [C|C].
  - exists z. split; [|now apply cast_unsigned_mod]. apply arith_id; [exact Ht'|]. clear HS HW. each_type Ht; ranges; lia.
  - exists (z mod 2 ^ wid t). split; [|rewrite cast_unsigned_mod, Z.mod_mod by (trivial; lia); reflexivity].
    clear HS HW. each_type Ht; ranges; try lia; reflexivity.
Qed.

Lemma log2_up_pred v : 1 < v -> Z.log2_up v = Z.log2 (v - 1) + 1.
Proof. intros H. rewrite Z.log2_up_eqn by lia. unfold Z.pred. rewrite Z.add_1_r. f_equal. Qed.
(** Adding one to the filled value gives the power of two above. *)
Lemma smeared_pred t v : In t int_types -> 0 < v <= tmax t -> smeared (wid t) (v - 1) + 1 = 2 ^ Z.log2_up v.
Proof.
  intros Ht Hv. rewrite smeared_nonneg by (trivial; lia). destruct (Z.eqb_spec (v - 1) 0) as [E|E].
  - replace v with 1 by lia. reflexivity.
  - rewrite log2_up_pred by lia. lia.
Qed.

Lemma RoundToPow2_exact t v : In t unsigned_types -> 0 <= v <= tmax t ->
  RoundToPow2 t v = Done (if (v =? 0) || (2 ^ (wid t - 1) <? v) then 0 else 2 ^ Z.log2_up v).
Proof.
  intros Ht Hv. destruct (unsigned_in t Ht) as (Ht' & HS & HW). rewrite RoundToPow2_unfold.
  assert (TM : tmax t = 2 ^ wid t - 1) by (unfold tmax; now rewrite HS).
  destruct (arith_back t (v - 1) Ht ltac:(lia)) as (d & -> & Ed). cbn [bind]. rewrite Ed.
  destruct (Z.eqb_spec v 0) as [->|Hne]; cbn [orb].
  - clear Ed TM HS HW Hv. each_type Ht; reflexivity.
  - rewrite Z.mod_small by lia. rewrite smeared_pred by (trivial; lia).
    assert (U : 0 <= Z.log2_up v <= wid t).
    { split; [apply Z.log2_up_nonneg|]. destruct (Z.le_gt_cases v 1); [rewrite Z.log2_up_eqn0 by lia; lia | apply Z.log2_up_le_pow2; lia]. }
    pose proof (Z.pow_le_mono_r 2 (Z.log2_up v) (wid t) ltac:(lia) ltac:(lia)). pose proof (Z.pow_pos_nonneg 2 (Z.log2_up v) ltac:(lia) ltac:(lia)).
    destruct (arith_back t (2 ^ Z.log2_up v) Ht ltac:(lia)) as (s & -> & Es). cbn [bind]. rewrite Es. f_equal.
    destruct (Z.ltb_spec (2 ^ (wid t - 1)) v) as [L|L].
    + replace (Z.log2_up v) with (wid t); [apply Z.mod_same; lia|].
      assert (wid t - 1 < Z.log2_up v); [|lia]. apply (Z.pow_lt_mono_r_iff 2); [lia|lia|].
      destruct (log2_up_ceiling v ltac:(lia)) as (_ & B & _). lia.
    + apply Z.mod_small. split; [lia|]. apply Z.pow_lt_mono_r; [lia|lia|].
      assert (Z.log2_up v <= wid t - 1); [|lia]. destruct (Z.le_gt_cases v 1); [rewrite Z.log2_up_eqn0 by lia; lia | apply Z.log2_up_le_pow2; lia].
Qed.
(** Every integer type: as soon as some power of two of the type is not below the value. *)
Lemma log2_up_below v k : 0 <= k -> v <= 2 ^ k -> Z.log2_up v <= k.
Proof. intros Hk H. destruct (Z.le_gt_cases v 1); [rewrite Z.log2_up_eqn0 by lia; lia | apply Z.log2_up_le_pow2; lia]. Qed.
Lemma RoundToPow2_spec t v k : In t int_types -> 0 < v <= 2 ^ k -> 0 <= k -> 2 ^ k <= tmax t -> RoundToPow2 t v = Done (2 ^ Z.log2_up v).
Proof.
  intros Ht Hv Hk HT. pose proof (type_widths t Ht) as HW. rewrite RoundToPow2_unfold.
  pose proof (log2_up_below v k Hk ltac:(lia)) as U. pose proof (Z.log2_up_nonneg v).
  pose proof (Z.pow_le_mono_r 2 (Z.log2_up v) k ltac:(lia) U). pose proof (Z.pow_pos_nonneg 2 (Z.log2_up v) ltac:(lia) ltac:(lia)).
  assert (I : forall z, 0 <= z <= tmax t -> arith t z = Done z /\ cast t z = z).
  { intros z Hz. split; [apply arith_id; trivial|apply cast_id; [lia|]]; clear HW; each_type Ht; ranges; lia. }
  destruct (I (v - 1) ltac:(lia)) as [E0 C0]. rewrite E0. cbn [bind]. rewrite C0. rewrite smeared_pred by (trivial; lia).
  destruct (I (2 ^ Z.log2_up v) ltac:(lia)) as [E C]. rewrite E. cbn [bind]. now rewrite C.
Qed.
(** Signed types: nothing below one is rounded up; above the highest power the increment overflows. *)
Lemma RoundToPow2_nonpositive t v : In t signed_types -> tmin t < v <= 0 -> RoundToPow2 t v = Done 0.
Proof.
  intros Hs Hv. assert (Ht : In t int_types) by (each_type Hs; cbn; tauto). pose proof (type_widths t Ht) as HW. rewrite RoundToPow2_unfold.
  assert (R : in_range t (v - 1) = true) by (clear HW; each_type Hs; ranges; lia).
  rewrite arith_id by (trivial; clear HW; each_type Hs; ranges; lia). cbn [bind].
  rewrite cast_id by (trivial; lia). rewrite smeared_negative by (trivial; lia). clear - Hs. each_type Hs; reflexivity.
Qed.
Lemma signed_top t v : In t signed_types -> (tmax t + 1) / 2 < v <= tmax t -> 2 ^ Z.log2_up v = tmax t + 1.
Proof.
  intros Hs Hv. assert (HT : tmax t = 2 ^ (wid t - 1) - 1 /\ (tmax t + 1) / 2 = 2 ^ (wid t - 2) /\ 2 ^ (wid t - 1) = 2 * 2 ^ (wid t - 2) /\ 8 <= wid t) by (clear - Hs; each_type Hs; vm_compute; repeat split; discriminate).
  destruct HT as (T1 & T2 & T3 & HW). rewrite T2 in Hv. pose proof (Z.pow_pos_nonneg 2 (wid t - 2) ltac:(lia) ltac:(lia)).
  replace (Z.log2_up v) with (wid t - 1); [lia|]. symmetry. apply Z.log2_up_unique; [lia|]. replace (Z.pred (wid t - 1)) with (wid t - 2) by lia. lia.
Qed.
Lemma RoundToPow2_signed_above t v : In t signed_types -> (tmax t + 1) / 2 < v <= tmax t ->
  RoundToPow2 t v = if wid t <? 32 then Done (tmin t) else Fault FUB.
Proof.
  intros Hs Hv. assert (Ht : In t int_types) by (each_type Hs; cbn; tauto). rewrite RoundToPow2_unfold.
  assert (P : 0 < v) by (clear - Hv Hs; each_type Hs; ranges; lia).
  assert (R : in_range t (v - 1) = true) by (clear - Hv Hs P; each_type Hs; ranges; lia).
  rewrite arith_id by (trivial; clear - Hv Hs P; each_type Hs; ranges; lia). cbn [bind].
  rewrite cast_id by (trivial; pose proof (type_widths t Ht); lia). rewrite smeared_pred by (trivial; lia). rewrite (signed_top t v) by assumption.
  clear - Hs. each_type Hs; reflexivity.
Qed.

Lemma shl_power c t k : In t int_types -> 0 <= k -> 2 ^ (k + 1) <= tmax t -> shl_assign c t (2 ^ k) = Done (2 ^ (k + 1)).
Proof.
  intros Ht Hk H. unfold shl_assign. pose proof (Z.pow_pos_nonneg 2 k ltac:(lia) Hk).
  replace (2 ^ k <? 0) with false by lia. rewrite andb_false_r. f_equal. rewrite Z.shiftl_mul_pow2 by lia. rewrite <- Z.pow_add_r by lia.
  pose proof (Z.pow_pos_nonneg 2 (k + 1) ltac:(lia) ltac:(lia)). apply cast_id; [pose proof (type_widths t Ht); lia|]. each_type Ht; ranges; lia.
Qed.
Lemma nearest_loop c t : In t int_types -> forall fuel k v n, 0 <= k <= Z.log2_up v -> v <= 2 ^ n -> 0 <= n -> 2 ^ n <= tmax t ->
  Z.log2_up v - k <= Z.of_nat fuel -> GetNearestPowerOfTwo_loop c fuel t v (2 ^ k) = Done (2 ^ Z.log2_up v).
Proof.
  intros Ht. induction fuel as [|fuel IH]; intros k v n Hk Hv Hn HT HF.
  - assert (k = Z.log2_up v) by lia. subst k. cbn [GetNearestPowerOfTwo_loop].
    destruct (Z.ltb_spec (2 ^ Z.log2_up v) v) as [C|C]; [|reflexivity].
    destruct (Z.le_gt_cases 0 v); [|pose proof (Z.pow_nonneg 2 (Z.log2_up v)); lia].
    destruct (log2_up_ceiling v ltac:(lia)) as (_ & L & _). lia.
  - cbn [GetNearestPowerOfTwo_loop]. pose proof (Z.pow_pos_nonneg 2 k ltac:(lia) (proj1 Hk)).
    destruct (Z.ltb_spec (2 ^ k) v) as [C|C].
    + destruct (log2_up_ceiling v ltac:(lia)) as (_ & L & M).
      assert (k < Z.log2_up v).
      { destruct (Z.eq_dec k (Z.log2_up v)) as [->|]; lia. }
      pose proof (log2_up_below v n Hn Hv). pose proof (Z.pow_le_mono_r 2 (k + 1) n ltac:(lia) ltac:(lia)).
      rewrite shl_power by (trivial; lia). cbn [bind]. apply (IH _ _ n); lia.
    + f_equal. destruct (Z.le_gt_cases v 1) as [D|D].
      * rewrite Z.log2_up_eqn0 in * by lia. f_equal. lia.
      * destruct (log2_up_ceiling v ltac:(lia)) as (_ & L & M). specialize (M k (proj1 Hk) C).
        assert (2 ^ k <= 2 ^ Z.log2_up v) by (apply Z.pow_le_mono_r; lia). lia.
Qed.
Lemma GetNearestPowerOfTwo_spec c t v k fuel : In t int_types -> v <= 2 ^ k -> 0 <= k -> 2 ^ k <= tmax t -> wid t <= Z.of_nat fuel ->
  GetNearestPowerOfTwo c fuel t v = Done (2 ^ Z.log2_up v).
Proof.
  intros Ht Hv Hk HT HF. unfold GetNearestPowerOfTwo. change 1 with (2 ^ 0).
  pose proof (Z.log2_up_nonneg v). apply (nearest_loop c t Ht _ _ _ k); trivial; [lia|].
  pose proof (log2_up_below v k Hk Hv). assert (k < wid t); [|lia]. pose proof (tmax_bound t Ht).
  apply (Z.pow_lt_mono_r_iff 2); [lia|pose proof (type_widths t Ht); lia|lia].
Qed.

(** For larger numbers no iteration reaches the number: an unsigned variable becomes zero and stays there, a signed one
    becomes negative first (and shifting that is undefined before C++20). *)
Lemma nearest_zero c t v : In t int_types -> 0 < v -> forall fuel, GetNearestPowerOfTwo_loop c fuel t v 0 = Fault FDiverge.
Proof.
  intros Ht Hv. induction fuel as [|fuel IH]; cbn [GetNearestPowerOfTwo_loop]; replace (0 <? v) with true by lia; [reflexivity|].
  unfold shl_assign. rewrite andb_false_r. cbn [bind]. rewrite Z.shiftl_0_l. replace (cast t 0) with 0; [exact IH|]. each_type Ht; reflexivity.
Qed.
Definition top_power (t : ity) : Z := wid t - 1 - (if sgn t then 1 else 0).
Lemma top_power_max t : In t int_types -> 0 <= top_power t /\ (tmax t + 1) / 2 = 2 ^ top_power t /\ 2 ^ top_power t <= tmax t.
Proof. intros Ht. each_type Ht; vm_compute; repeat split; discriminate. Qed.
Lemma nearest_diverges c t v : In t int_types -> (tmax t + 1) / 2 < v <= tmax t -> forall fuel k, 0 <= k <= top_power t ->
  GetNearestPowerOfTwo_loop c fuel t v (2 ^ k) = Fault FDiverge \/
  (c = false /\ sgn t = true /\ GetNearestPowerOfTwo_loop c fuel t v (2 ^ k) = Fault FUB).
Proof.
  intros Ht Hv. destruct (top_power_max t Ht) as (T0 & T1 & T2). rewrite T1 in Hv.
  induction fuel as [|fuel IH]; intros k Hk; cbn [GetNearestPowerOfTwo_loop];
    pose proof (Z.pow_le_mono_r 2 k (top_power t) ltac:(lia) ltac:(lia)); pose proof (Z.pow_pos_nonneg 2 k ltac:(lia) (proj1 Hk));
    replace (2 ^ k <? v) with true by lia; [now left|].
  destruct (Z.eq_dec k (top_power t)) as [->|C].
  - clear IH. assert (V : 0 < v <= tmax t) by lia. clear Hv T0 T1 T2 Hk H H0.
    assert (Z0 := nearest_zero c t v Ht (proj1 V)).
    destruct (sgn t) eqn:HS.
    + assert (E : shl_assign c t (2 ^ top_power t) = Done (tmin t)) by (destruct c; each_type Ht; try discriminate; reflexivity).
      rewrite E. cbn [bind]. destruct fuel as [|fuel]; cbn [GetNearestPowerOfTwo_loop];
        replace (tmin t <? v) with true by (symmetry; apply Z.ltb_lt; clear Z0 E; each_type Ht; try discriminate; ranges; lia); [now left|].
      destruct c.
      * replace (shl_assign true t (tmin t)) with (@Done Z 0) by (clear - Ht HS; each_type Ht; try discriminate; reflexivity). cbn [bind]. left. apply Z0.
      * replace (shl_assign false t (tmin t)) with (@Fault Z FUB) by (clear - Ht HS; each_type Ht; try discriminate; reflexivity). right. auto.
    + replace (shl_assign c t (2 ^ top_power t)) with (@Done Z 0) by (clear - Ht HS; destruct c; each_type Ht; try discriminate; reflexivity). cbn [bind]. left. apply Z0.
  - rewrite shl_power; [|trivial|lia|pose proof (Z.pow_le_mono_r 2 (k + 1) (top_power t) ltac:(lia) ltac:(lia)); lia]. cbn [bind]. apply IH. lia.
Qed.

(** ** Alignment *)
(** [r] is the least multiple of [a] that is not below [o]. *)
Definition is_align (o a r : Z) : Prop := (exists q, r = q * a) /\ o <= r /\ forall q, o <= q * a -> r <= q * a.

Lemma align_floor o a : 0 < a -> is_align o a ((o + a - 1) / a * a).
Proof.
  intros Ha. split; [eexists; reflexivity|]. pose proof (Z.div_mod (o + a - 1) a ltac:(lia)) as D.
  pose proof (Z.mod_pos_bound (o + a - 1) a Ha) as M. split; [lia|].
  intros q Hq. apply Z.mul_le_mono_nonneg_r; [lia|]. apply Z.lt_succ_r. apply Z.div_lt_upper_bound; lia.
Qed.
Lemma align_unique o a r r' : is_align o a r -> is_align o a r' -> r = r'.
Proof. intros ((q & ->) & H1 & H2) ((q' & ->) & H3 & H4). specialize (H2 q' H3). specialize (H4 q H1). lia. Qed.

(** No wrap-around: the sums stay in the type (for unsigned types of 32 bits and more, modular intermediate results are
    harmless). *)
Definition align_fits (t : ity) (o a : Z) : Prop :=
  o + a - 1 <= tmax t /\ (sgn t = true -> 32 <= wid t -> o + a <= tmax t).

Lemma arith_sum_minus_one t x : In t int_types -> tmin t + 1 <= x -> x - 1 <= tmax t ->
  (sgn t = true -> 32 <= wid t -> x <= tmax t) ->
  (s <- arith t x ;; arith t (s - 1)) = Done (x - 1).
Proof.
  intros Ht H1 H2 H3. destruct (in_range (promote t) x) eqn:R.
  - rewrite (arith_id t x Ht R). cbn [bind]. apply arith_id; trivial. each_type Ht; ranges; lia.
  - each_type Ht; ranges; try lia; unfold arith; types; cbn [bind]; f_equal; rewrite !cast_unsigned_mod by reflexivity; types.
    + assert (x = 2 ^ 32) by lia. subst x. reflexivity.
    + assert (x = 2 ^ 64) by lia. subst x. reflexivity.
Qed.

Lemma Align_quot t o a : In t int_types -> in_range t o = true -> 0 < a <= tmax t -> align_fits t o a ->
  Align t o a = Done (Z.quot (o + a - 1) a * a).
Proof.
  intros Ht Ho Ha (F1 & F2). unfold Align. replace (0 <? a) with true by lia. cbn [assert bind].
  assert (Q := arith_sum_minus_one t (o + a) Ht). 
  assert (B : tmin t <= o) by (unfold in_range in Ho; lia).
  rewrite <- (bind_assoc (arith t (o + a)) (fun s => arith t (s - 1))).
  rewrite Q by (trivial; lia). cbn [bind]. unfold cdiv. replace (a =? 0) with false by lia.
  set (x := o + a - 1) in *. assert (XR : tmin t <= x) by lia.
  assert (QB : - Z.abs x <= Z.quot x a <= Z.abs x /\ - Z.abs x <= Z.quot x a * a <= Z.abs x /\ (0 <= x -> 0 <= Z.quot x a * a <= x) /\ (0 <= x -> 0 <= Z.quot x a <= x)
    /\ (x <= 0 -> x <= Z.quot x a * a <= 0) /\ (x <= 0 -> x <= Z.quot x a <= 0)).
  { destruct (Z.le_gt_cases 0 x) as [C|C].
    - rewrite Z.quot_div_nonneg by lia. pose proof (Z.div_mod x a ltac:(lia)). pose proof (Z.mod_pos_bound x a ltac:(lia)).
      pose proof (Z.div_pos x a C ltac:(lia)). assert (x / a <= x) by (apply Z.div_le_upper_bound; nia). repeat split; try lia; nia.
    - rewrite <- (Z.opp_involutive x), Z.quot_opp_l by lia. rewrite Z.quot_div_nonneg by lia. set (y := - x) in *.
      pose proof (Z.div_mod y a ltac:(lia)). pose proof (Z.mod_pos_bound y a ltac:(lia)).
      pose proof (Z.div_pos y a ltac:(lia) ltac:(lia)). assert (y / a <= y) by (apply Z.div_le_upper_bound; nia). repeat split; try lia; nia. }
  destruct QB as (_ & _ & Q1 & Q2 & Q3 & Q4).
  rewrite (arith_id t) by (trivial; clearbody x; each_type Ht; ranges; lia). cbn [bind].
  rewrite (arith_id t) by (trivial; clearbody x; each_type Ht; ranges; lia). cbn [bind].
  rewrite cast_id; trivial; clearbody x; each_type Ht; ranges; lia.
Qed.

Lemma Align_spec t o a : In t int_types -> 0 <= o <= tmax t -> 0 < a <= tmax t -> align_fits t o a ->
  exists r, Align t o a = Done r /\ is_align o a r.
Proof.
  intros Ht Ho Ha F. exists ((o + a - 1) / a * a). split; [|apply align_floor; lia].
  rewrite Align_quot; trivial; [|each_type Ht; ranges; lia]. rewrite Z.quot_div_nonneg by lia. reflexivity.
Qed.

(** On a negative multiple of the alignment the signed version moves to the next multiple. *)
Lemma Align_negative_multiple t q a : In t signed_types -> 1 < a <= tmax t -> q < 0 -> in_range t (q * a) = true ->
  Align t (q * a) a = Done ((q + 1) * a).
Proof.
  intros Ht Ha Hq HR. assert (Ht' : In t int_types) by (apply in_or_app; now right).
  rewrite Align_quot; trivial; [|lia|].
  - f_equal. f_equal. replace (q * a + a - 1) with (- ((- q - 1) * a + 1)) by lia. rewrite Z.quot_opp_l by lia.
    rewrite Z.quot_div_nonneg by nia. rewrite Z.div_add_l by lia. rewrite (Z.div_small 1) by lia. lia.
  - assert (q * a <= - a) by nia. split; lia.
Qed.

Lemma land_neg_pow2 x k : 0 <= k -> Z.land x (- 2 ^ k) = x / 2 ^ k * 2 ^ k.
Proof.
  intros Hk. rewrite <- Z.shiftr_div_pow2, <- Z.shiftl_mul_pow2 by lia. apply Z.bits_inj'. intros i Hi.
  rewrite Z.land_spec. replace (- 2 ^ k) with (0 - 2 ^ k) by lia. rewrite neg_bits by (try lia).
  rewrite Z.bits_0. destruct (Z.ltb_spec i k).
  - rewrite Z.shiftl_spec_low by assumption. apply andb_false_r.
  - rewrite Z.shiftl_spec_high, Z.shiftr_spec by lia. rewrite andb_true_r. f_equal. lia.
Qed.

Lemma AlignPow2_spec t o k : In t int_types -> in_range t o = true -> 0 <= k -> 2 ^ k <= tmax t -> align_fits t o (2 ^ k) ->
  exists r, AlignPow2 t o (2 ^ k) = Done r /\ is_align o (2 ^ k) r.
Proof.
  intros Ht Ho Hk Ha (F1 & F2). set (a := 2 ^ k) in *. assert (P : 0 < a) by (apply Z.pow_pos_nonneg; lia).
  exists ((o + a - 1) / a * a). split; [|apply align_floor; lia].
  unfold AlignPow2. replace (0 <? a) with true by lia. cbn [assert bind].
  destruct (IsPow2_spec t a Ht ltac:(lia)) as (r & -> & Hr). cbn [bind]. rewrite (proj2 Hr) by eauto. cbn [assert bind].
  assert (B : tmin t <= o) by (unfold in_range in Ho; lia).
  rewrite <- (bind_assoc (arith t (o + a)) (fun s => arith t (s - 1))).
  rewrite (arith_sum_minus_one t (o + a)) by (trivial; lia). cbn [bind].
  rewrite (arith_id t) by (trivial; clearbody a; each_type Ht; ranges; lia). cbn [bind]. f_equal.
  set (x := o + a - 1) in *. pose proof (Z.div_mod x a ltac:(lia)) as DM. pose proof (Z.mod_pos_bound x a P) as MB.
  pose proof (land_neg_pow2 x k Hk) as LN. fold a in LN.
  assert (LNOT : Z.lnot (a - 1) = - a) by (unfold Z.lnot; lia). rewrite LNOT.
  assert (FIN : tmin t <= x / a * a <= tmax t) by lia.
  destruct (sgn (promote t)) eqn:SP.
  - rewrite (cast_id (promote t)) by (clearbody a x; each_type Ht; ranges; try discriminate; lia). rewrite LN.
    apply cast_id; [each_type Ht; cbn; lia|]. unfold in_range. lia.
  - assert (U : sgn t = false /\ promote t = t) by (each_type Ht; ranges; try discriminate; auto). destruct U as [U1 U2]. rewrite U2.
    assert (TM : tmin t = 0 /\ tmax t = 2 ^ wid t - 1) by (unfold tmin, tmax; rewrite U1; auto). destruct TM as [TM1 TM2].
    assert (W : 0 < wid t) by (each_type Ht; cbn; lia).
    rewrite (cast_unsigned_mod t (- a)) by exact U1.
    replace (Z.land x ((- a) mod 2 ^ wid t)) with (x / a * a); [apply cast_id; [exact W | unfold in_range; lia]|].
    rewrite <- LN. apply Z.bits_inj'. intros i Hi. rewrite !Z.land_spec. destruct (Z.lt_ge_cases i (wid t)).
    + rewrite Z.mod_pow2_bits_low by assumption. reflexivity.
    + rewrite (pow2_high x (wid t)) by lia. reflexivity.
Qed.
