(** Property C159: the functions for integers refuse other types. *)
From Coq Require Import ZArith QArith SpecFloat.
From Verif Require Import Base CInt MathModel MathProofs2 PropMath FloatSpec FloatModel FloatProofs FloatRound FloatError FloatOps ConceptModel.
Open Scope Z_scope.

(** With concepts only integers are taken; all functions take those other than bool. *)
Theorem C159_concepts : (forall f a, compiles true f a = true -> a = AInteger \/ a = ABool) /\ (forall concepts f, compiles concepts f AInteger = true).
Proof. split; [intros f a; destruct a; auto; discriminate | intros [|] f; destruct f; reflexivity]. Qed.
Print Assumptions C159_concepts.
(** Without them, floating point arguments are taken by exactly these. *)
Theorem C159_floating_refuted : forall f a, a = AFloat \/ a = ADouble ->
  (compiles false f a = true <-> f = FAlign \/ (a = AFloat /\ (f = FIntegralLog2 \/ f = FIntegralLog2Pot))).
Proof. intros f a [-> | ->]; destruct f; cbn; split; intros H; try discriminate; try tauto; try reflexivity; destruct H as [H|(H & [H'|H'])]; try discriminate. Qed.
Print Assumptions C159_floating_refuted.
(** Enumerations are taken by the functions that return none. *)
Theorem C159_enumerations_refuted : forall f, compiles false f AEnum = true <-> In f [FTestBit; FIntegralLog2; FIntegralLog2Pot; FIsPow2].
Proof. intros f. destruct f; cbn; split; intros H; try discriminate; try tauto; repeat (destruct H as [H|H]; try discriminate); destruct H. Qed.
Print Assumptions C159_enumerations_refuted.
Theorem C159_bool : forall concepts f, compiles concepts f ABool = true <-> ~ In f [FFindFirstBit; FFindLastBit; FRoundToPow2].
Proof. intros [|] f; destruct f; cbn; split; intros H; try discriminate; try reflexivity; try (intros K; repeat (destruct K as [K|K]; try discriminate); destruct K); exfalso; apply H; tauto. Qed.
Print Assumptions C159_bool.

(** What Align does then: without the truncation of the division it adds alignment - 1... *)
Theorem C159_align_value : forall o a : Q, ~ (a == 0)%Q -> ((o + a - 1) / a * a == o + a - 1)%Q.
Proof. intros o a H. field. exact H. Qed.
Print Assumptions C159_align_value.
(** ... which is the least multiple not below the offset only when the offset is one more than a multiple. *)
Theorem C159_align_refuted : forall o a, 0 < a -> (least_multiple o a (o + a - 1) <-> (o - 1) mod a = 0).
Proof.
  intros o a Ha. unfold least_multiple. split.
  - intros H. assert (E : exists q, o + a - 1 = q * a) by (decompose [and ex] H; eauto). destruct E as (q & E). replace (o - 1) with ((q - 1) * a) by lia. apply Z.mod_mul. lia.
  - intros M. apply Z.div_exact in M; [|lia]. set (q := (o - 1) / a) in *. split; [exists (q + 1); lia|]. split; [lia|]. intros k Hk. assert (q < k) by nia. nia.
Qed.
Print Assumptions C159_align_refuted.
(** In floating point arithmetic it is exactly that number for integers and powers of two of at most prec bits (24 for float, 53 for double);
    [key] is the value of a number as a multiple of the least one. *)
Local Ltac zl := repeat match goal with H : @eq bool _ _ |- _ => clear H end; lia.
Local Ltac zn := repeat match goal with H : @eq bool _ _ |- _ => clear H | H : FloatRound.rounded _ _ _ _ _ |- _ => clear H end; nia.
Theorem C159_align_float_refuted : forall prec emax, 1 < prec -> prec < emax -> forall o p, 0 <= p -> Z.abs o + 2 ^ p <= 2 ^ prec ->
  exists r, FloatAlign prec emax (of_Z prec emax o) (of_Z prec emax (2 ^ p)) = Done r /\ std_isfinite r = true /\ key prec emax r = key prec emax (of_Z prec emax (o + 2 ^ p - 1)).
Proof.
  intros prec emax Hp He o p H0 HB. set (a := 2 ^ p) in *. assert (A0 : 0 < a) by (apply Z.pow_pos_nonneg; zl). set (one := 2 ^ (- emin prec emax)).
  assert (U : 0 < one) by exact (one_pos prec emax Hp He). assert (U2 : 2 ^ prec <= one) by exact (one_big prec emax Hp He). assert (EN := emin_neg prec emax Hp He).
  destruct (of_Z_exact prec emax Hp He o ltac:(zl)) as (Vo & Fo & Ko). destruct (of_Z_exact prec emax Hp He a ltac:(zl)) as (Va & Fa & Ka). destruct (of_Z_exact prec emax Hp He 1 ltac:(zl)) as (V1 & F1 & K1).
  destruct (of_Z_exact prec emax Hp He (o + a - 1) ltac:(zl)) as (_ & _ & Kr). rewrite Kr. fold one in Ko, Ka, K1, Kr |- *.
  set (fo := of_Z prec emax o) in *. set (fa := of_Z prec emax a) in *. unfold FloatAlign. change (binary_normalize prec emax 1 0 false) with (of_Z prec emax 1). set (f1 := of_Z prec emax 1) in *.
  assert (LT : SFltb (S754_zero false) fa = true). { rewrite (ltb_key prec emax Hp He) by (trivial; reflexivity). rewrite (finite_number fa Fa), Ka. cbn [std_isnan orb negb andb]. change (key prec emax (S754_zero false)) with 0. apply Z.ltb_lt. zn. }
  rewrite LT. cbn [assert bind]. eexists. split; [reflexivity|].
  destruct (integer_exact prec emax Hp He (o + a) (key prec emax fo + key prec emax fa) 1 (SFadd prec emax fo fa)) as (Vs & Fs & Ks); [zl | now apply add_rounded | zl | fold one; rewrite Ko, Ka; ring |]. set (s1 := SFadd prec emax fo fa) in *. fold one in Ks.
  destruct (integer_exact prec emax Hp He (o + a - 1) (key prec emax s1 - key prec emax f1) 1 (SFsub prec emax s1 f1)) as (Vd & Fd & Kd); [zl | now apply sub_rounded | zl | fold one; rewrite Ks, K1; ring |]. set (s2 := SFsub prec emax s1 f1) in *. fold one in Kd.
  assert (RQ := div_rounded prec emax Hp He s2 fa Vd Va Fd Fa ltac:(rewrite Ka; zn)). set (s3 := SFdiv prec emax s2 fa) in *. replace (key prec emax fa <? 0) with false in RQ by (symmetry; apply Z.ltb_ge; rewrite Ka; zn). cbn [signed] in RQ. fold one in RQ. rewrite Kd, Ka in RQ. rewrite Z.abs_eq in RQ by zn.
  assert (PE : prec <= - emin prec emax) by (apply (Z.pow_le_mono_r_iff 2); [zl|zl|exact U2]). assert (PP : p <= prec) by (apply (Z.pow_le_mono_r_iff 2); [zl|zl|fold a; zl]).
  set (k := - emin prec emax - p). assert (OK : one = a * 2 ^ k) by (unfold one, a, k; rewrite <- Z.pow_add_r by zl; f_equal; zl). assert (P2 : 0 < 2 ^ k) by (apply Z.pow_pos_nonneg; unfold k; zl).
  assert (TT : Z.abs (o + a - 1) * one < top prec emax) by (apply (integer_top prec emax Hp He); zl).
  destruct (number_of prec emax Hp He (o + a - 1) k) as (x & Vx & Nx & Kx); [zl | unfold k; zl | zn |].
  assert (K3 : key prec emax s3 = (o + a - 1) * 2 ^ k) by (rewrite <- Kx; apply (rounded_exact prec emax _ (a * one) x s3 ltac:(zn) RQ Vx Nx); rewrite Kx, OK; ring).
  assert (F3 : std_isfinite s3 = true) by (apply (rounded_finite prec emax Hp He _ (a * one) s3 ltac:(zn) RQ); rewrite K3, Z.abs_mul, (Z.abs_eq (2 ^ k)) by zl; zn).
  assert (V3 : valid_binary prec emax s3 = true) by apply RQ.
  destruct (integer_exact prec emax Hp He (o + a - 1) (key prec emax s3 * key prec emax fa) one (SFmul prec emax s3 fa)) as (_ & F4 & K4); [exact U | now apply mul_rounded | zl | fold one; rewrite K3, Ka, OK; ring |]. split; [exact F4 | exact K4].
Qed.
Print Assumptions C159_align_float_refuted.
Theorem C159_align_assertion : forall prec emax o a, SFltb (S754_zero false) a = false -> FloatAlign prec emax o a = Fault FAssert.
Proof. intros prec emax o a H. unfold FloatAlign. now rewrite H. Qed.
Print Assumptions C159_align_assertion.
Theorem C159_log2_float : forall m e, let up := Z.max 0 e in let down := Z.max 0 (- e) in 2 ^ down <= m * 2 ^ up < 2 ^ 32 * 2 ^ down ->
  exists r, FloatLog2 m e = Done r /\ 2 ^ r * 2 ^ down <= m * 2 ^ up < 2 ^ (r + 1) * 2 ^ down.
Proof.
  intros m e up down H. unfold FloatLog2, truncated. assert (P : 0 < 2 ^ down) by (apply Z.pow_pos_nonneg; unfold down; lia).
  assert (N : exists n, (if 0 <=? e then m * 2 ^ e else Z.quot m (2 ^ (- e))) = n /\ n * 2 ^ down <= m * 2 ^ up < (n + 1) * 2 ^ down).
  { eexists. split; [reflexivity|]. destruct (Z.leb_spec 0 e).
    - replace down with 0 by (unfold down; lia). replace up with e by (unfold up; lia). rewrite Z.pow_0_r. lia.
    - replace up with 0 in * by (unfold up; lia). replace down with (- e) in * by (unfold down; lia). rewrite Z.pow_0_r, Z.mul_1_r in *. rewrite Z.quot_div_nonneg by lia. pose proof (Z.div_mod m (2 ^ (- e)) ltac:(lia)). pose proof (Z.mod_pos_bound m (2 ^ (- e)) P). lia. }
  destruct N as (n & -> & B). assert (N1 : 1 <= n) by nia. assert (N2 : n < 2 ^ 32) by nia. replace ((0 <=? n) && (n <? 2 ^ 32)) with true by lia. cbn [require bind]. rewrite IntegralLog2_32_spec by lia. exists (Z.log2 n). split; [reflexivity|].
  destruct (Z.log2_spec n ltac:(lia)) as (L1 & L2). rewrite <- Z.add_1_r in L2. nia.
Qed.
Print Assumptions C159_log2_float.
(** Below 0 and from 2^32 on the conversion is undefined. *)
Theorem C159_log2_float_refuted : forall m e, 0 <= e -> m < 0 \/ 2 ^ 32 <= m * 2 ^ e -> FloatLog2 m e = Fault FUB.
Proof.
  intros m e He H. unfold FloatLog2, truncated. replace (0 <=? e) with true by lia. assert (0 < 2 ^ e) by (apply Z.pow_pos_nonneg; lia). replace ((0 <=? m * 2 ^ e) && (m * 2 ^ e <? 2 ^ 32)) with false; [reflexivity|]. symmetry. apply andb_false_iff. destruct H; [left; apply Z.leb_gt; nia | right; apply Z.ltb_ge; lia].
Qed.
Print Assumptions C159_log2_float_refuted.

(** Between -1 and 1 the result is that of 0. *)
Theorem C159_log2_float_fraction : forall m e, e < 0 -> Z.abs m < 2 ^ (- e) -> FloatLog2 m e = Done 0.
Proof. intros m e He H. unfold FloatLog2, truncated. replace (0 <=? e) with false by lia. assert (Q : Z.quot m (2 ^ (- e)) = 0) by (apply Z.quot_small_iff; lia). rewrite Q. reflexivity. Qed.
Print Assumptions C159_log2_float_fraction.

(** IntegralLog2Pot of a float power of two is right up to 32 and undefined from 64 on. *)
Definition outcome_eqb (x y : outcome Z) : bool := match x, y with Done a, Done b => a =? b | Fault FUB, Fault FUB => true | _, _ => false end.
Theorem C159_log2_pot_float_refuted : forall k, -126 <= k <= 127 -> FloatLog2Pot (binary_normalize 24 128 1 k false) = if k <? 0 then Done 0 else if k <? 6 then Done k else Fault FUB.
Proof.
  assert (G : forallb (fun i => let k := Z.of_nat i - 126 in outcome_eqb (FloatLog2Pot (binary_normalize 24 128 1 k false)) (if k <? 0 then Done 0 else if k <? 6 then Done k else Fault FUB)) (seq 0 254) = true) by (vm_compute; reflexivity).
  intros k Hk. rewrite forallb_forall in G. specialize (G (Z.to_nat (k + 126)) ltac:(apply in_seq; lia)). cbv zeta in G. replace (Z.of_nat (Z.to_nat (k + 126)) - 126) with k in G by lia.
  unfold outcome_eqb in G. destruct (FloatLog2Pot _) as [x|f]; destruct (k <? 0), (k <? 6); try discriminate; try (apply Z.eqb_eq in G; now subst); destruct f; try discriminate; reflexivity.
Qed.
Print Assumptions C159_log2_pot_float_refuted.

(** Of the other floats, zeros give 0, infinities and not-a-numbers are undefined, and so is every negative power of two from 2^-26 on. *)
Theorem C159_log2_pot_float_zero : forall s, FloatLog2Pot (S754_zero s) = Done 0.
Proof. intros []; vm_compute; reflexivity. Qed.
Print Assumptions C159_log2_pot_float_zero.
Theorem C159_log2_pot_float_not_finite : FloatLog2Pot S754_nan = Fault FUB /\ forall s, FloatLog2Pot (S754_infinity s) = Fault FUB.
Proof. split; [|intros []]; vm_compute; reflexivity. Qed.
Print Assumptions C159_log2_pot_float_not_finite.
Theorem C159_log2_pot_float_negative : forall k, -126 <= k <= 127 -> FloatLog2Pot (binary_normalize 24 128 (-1) k false) = if k <? -26 then Done 0 else Fault FUB.
Proof.
  assert (G : forallb (fun i => let k := Z.of_nat i - 126 in outcome_eqb (FloatLog2Pot (binary_normalize 24 128 (-1) k false)) (if k <? -26 then Done 0 else Fault FUB)) (seq 0 254) = true) by (vm_compute; reflexivity).
  intros k Hk. rewrite forallb_forall in G. specialize (G (Z.to_nat (k + 126)) ltac:(apply in_seq; lia)). cbv zeta in G. replace (Z.of_nat (Z.to_nat (k + 126)) - 126) with k in G by lia.
  unfold outcome_eqb in G. destruct (FloatLog2Pot _) as [x|f]; destruct (k <? -26); try discriminate; try (apply Z.eqb_eq in G; now subst); destruct f; try discriminate; reflexivity.
Qed.
Print Assumptions C159_log2_pot_float_negative.

(** The conversion to UInt32 is undefined from 2^32 on. *)
Theorem C159_to_uint32 : forall m e, 0 <= e -> to_uint32 (S754_finite false m e) = if Zpos m * 2 ^ e <? 2 ^ 32 then Done (Zpos m * 2 ^ e) else Fault FUB.
Proof.
  intros m e He. unfold to_uint32, truncated. replace (0 <=? e) with true by lia. cbv zeta.
  replace (0 <=? Zpos m * 2 ^ e) with true by (symmetry; apply Z.leb_le; apply Z.mul_nonneg_nonneg; [lia|apply Z.pow_nonneg; lia]).
  destruct (Zpos m * 2 ^ e <? 2 ^ 32); reflexivity.
Qed.
Print Assumptions C159_to_uint32.

Definition float_of (n : Z) : spec_float := binary_normalize 24 128 n 0 false.
Example C159_align_example : FloatAlign 24 128 (float_of 6) (float_of 4) = Done (float_of 9) /\ FloatAlign 24 128 (float_of 5) (float_of 4) = Done (float_of 8) /\ FloatAlign 24 128 (float_of 8) (float_of 4) = Done (float_of 11).
Proof. vm_compute. tauto. Qed.
Example C159_log2_example : FloatLog2 23 (-2) = Done 2 /\ FloatLog2 1 32 = Fault FUB /\ FloatLog2 (-1) (-1) = Done 0.
Proof. vm_compute. tauto. Qed.
