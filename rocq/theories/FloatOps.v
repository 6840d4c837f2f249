(** std::fma, std::fmod, truncation to long long and integer values, by correct rounding. *)
From Verif Require Import FloatSpec FloatModel FloatProofs FloatRound FloatError.
Open Scope Z_scope.
(** lia without the boolean hypotheses, which make it slow *)
Local Ltac zlia := repeat match goal with H : @eq bool _ _ |- _ => clear H end; lia.

Section Format.
Variables prec emax : Z.
Hypothesis Hprec : 1 < prec.
Hypothesis Hemax : prec < emax.
Local Notation emin := (emin prec emax).
Local Notation valid x := (valid_binary prec emax x = true).
Local Notation number x := (std_isnan x = false).
Local Notation finite x := (std_isfinite x = true).
Local Notation top := (top prec emax).
Local Notation key := (key prec emax).
Local Notation rounded := (rounded prec emax).
Local Notation one := (2 ^ (- emin)).

Lemma one_pos : 0 < one.
Proof. apply Z.pow_pos_nonneg; [zlia|]. pose proof (emin_neg prec emax Hprec Hemax). zlia. Qed.
Lemma finite_number x : finite x -> number x.
Proof. destruct x; try discriminate; reflexivity. Qed.
Lemma finite_key x : valid x -> number x -> (finite x <-> Z.abs (key x) < top).
Proof.
  intros V N. split.
  - intros F. pose proof (key_finite prec emax Hprec Hemax x V F). zlia.
  - destruct x as [s|s| |s m e]; try reflexivity; [|discriminate]. pose proof (top_pos prec emax Hprec Hemax). destruct s; cbn [FloatSpec.key]; zlia.
Qed.
Lemma rounded_finite n d y : 0 < d -> rounded n d y -> finite y <-> Z.abs (key y) < top.
Proof. intros _ (V & N & _). now apply finite_key. Qed.
Lemma pow_split a b : 0 <= a -> 0 <= b -> 2 ^ a * 2 ^ b = 2 ^ (a + b).
Proof. intros. symmetry. now apply Z.pow_add_r. Qed.

(** ** std::fma *)
Lemma fma_rounded x y z : valid x -> valid y -> valid z -> finite x -> finite y -> finite z -> rounded (key x * key y + key z * one) one (std_fma prec emax x y z).
Proof.
  intros VX VY VZ FX FY FZ. pose proof one_pos as U. pose proof (emin_neg prec emax Hprec Hemax) as EN.
  assert (ZERO : forall s, rounded (key z * one) one (SFadd prec emax (S754_zero s) z)).
  { intros s. destruct z as [t|t| |t m e]; try discriminate; cbn [SFadd]; [destruct (Bool.eqb s t); apply zero_rounded; assumption|]. apply self_rounded; [exact VZ | reflexivity | exact U | reflexivity]. }
  destruct x as [s1|s1| |s1 m1 e1]; try discriminate; destruct y as [s2|s2| |s2 m2 e2]; try discriminate; cbn [std_fma SFmul].
  1-3: change (key (S754_zero s1)) with 0; try change (key (S754_zero s2)) with 0; rewrite ?Z.mul_0_r, ?Z.mul_0_l, Z.add_0_l; apply ZERO.
  destruct z as [s3|s3| |s3 m3 e3]; try discriminate.
  - change (key (S754_zero s3)) with 0. rewrite Z.mul_0_l, Z.add_0_r. now apply (mul_rounded prec emax Hprec Hemax (S754_finite s1 m1 e1) (S754_finite s2 m2 e2)).
  - destruct (valid_finite _ _ Hprec Hemax _ _ _ VX) as ((E1 & _) & _). destruct (valid_finite _ _ Hprec Hemax _ _ _ VY) as ((E2 & _) & _). destruct (valid_finite _ _ Hprec Hemax _ _ _ VZ) as ((E3 & _) & _).
    set (e := Z.min (e1 + e2) e3). set (p := Zpos (m1 * m2) * 2 ^ (e1 + e2 - e)). set (a := Zpos m3 * 2 ^ (e3 - e)). assert (EB : 2 * emin <= e) by (unfold e; zlia). assert (EL : e <= e1 + e2 /\ e <= e3) by (unfold e; zlia). clearbody e.
    pose proof (normalize_rounded prec emax Hprec Hemax ((if xorb s1 s2 then - p else p) + (if s3 then - a else a)) e (2 * emin) false EB ltac:(zlia)) as R.
    replace (emin - 2 * emin) with (- emin) in R by zlia. replace (_ + key (S754_finite s3 m3 e3) * one) with (((if xorb s1 s2 then - p else p) + (if s3 then - a else a)) * 2 ^ (e - 2 * emin)); [exact R|].
    rewrite !(key_signed prec emax), signed_mul.
    assert (PV : p * 2 ^ (e - 2 * emin) = Zpos m1 * 2 ^ (e1 - emin) * (Zpos m2 * 2 ^ (e2 - emin))).
    { unfold p. rewrite Pos2Z.inj_mul. transitivity (Zpos m1 * Zpos m2 * (2 ^ (e1 + e2 - e) * 2 ^ (e - 2 * emin))); [ring|]. transitivity (Zpos m1 * Zpos m2 * (2 ^ (e1 - emin) * 2 ^ (e2 - emin))); [|ring]. rewrite !pow_split by zlia. do 2 f_equal. zlia. }
    assert (AV : a * 2 ^ (e - 2 * emin) = Zpos m3 * 2 ^ (e3 - emin) * one).
    { unfold a. rewrite <- !Z.mul_assoc, !pow_split by zlia. do 2 f_equal. zlia. }
    rewrite <- PV. transitivity (signed (xorb s1 s2) (p * 2 ^ (e - 2 * emin)) + signed s3 (a * 2 ^ (e - 2 * emin))); [destruct (xorb s1 s2), s3; cbn [signed]; ring|]. rewrite AV. destruct s3; cbn [signed]; ring.
Qed.

(** ** std::fmod is exact *)
Lemma rem_signed s t a b : 0 <= a -> 0 < b -> Z.rem (signed s a) (signed t b) = signed s (a mod b).
Proof.
  intros A B. rewrite <- (Z.rem_mod_nonneg a b) by zlia. destruct s, t; cbn [signed]; rewrite ?Z.rem_opp_l, ?Z.rem_opp_r by zlia; rewrite ?Z.rem_opp_l by zlia; reflexivity.
Qed.
Lemma fmod_key x y : valid x -> valid y -> finite x -> finite y -> key y <> 0 ->
  valid (std_fmod prec emax x y) /\ finite (std_fmod prec emax x y) /\ key (std_fmod prec emax x y) = Z.rem (key x) (key y).
Proof.
  intros VX VY FX FY NZ. destruct y as [s2|s2| |s2 m2 e2]; try discriminate; [contradiction|]. destruct x as [s1|s1| |s1 m1 e1]; try discriminate; cbn [std_fmod].
  { split; [reflexivity|]. split; [reflexivity|]. cbn [FloatSpec.key]. symmetry. apply Z.rem_0_l. exact NZ. }
  destruct (valid_finite _ _ Hprec Hemax _ _ _ VX) as ((E1 & B1 & _) & _ & K1). destruct (valid_finite _ _ Hprec Hemax _ _ _ VY) as ((E2 & B2 & _) & _ & K2).
  set (e := Z.min e1 e2). assert (EL : emin <= e /\ e <= e1 /\ e <= e2 /\ (e = e1 \/ e = e2)) by (unfold e; zlia). clearbody e. set (a := Zpos m1 * 2 ^ (e1 - e)). set (b := Zpos m2 * 2 ^ (e2 - e)).
  assert (PA : 0 < a) by (apply Z.mul_pos_pos; [zlia | apply Z.pow_pos_nonneg; zlia]). assert (PB : 0 < b) by (apply Z.mul_pos_pos; [zlia | apply Z.pow_pos_nonneg; zlia]).
  assert (KA : Zpos m1 * 2 ^ (e1 - emin) = a * 2 ^ (e - emin)) by (unfold a; rewrite <- Z.mul_assoc, pow_split by zlia; do 2 f_equal; zlia).
  assert (KB : Zpos m2 * 2 ^ (e2 - emin) = b * 2 ^ (e - emin)) by (unfold b; rewrite <- Z.mul_assoc, pow_split by zlia; do 2 f_equal; zlia).
  pose proof (Z.mod_pos_bound a b PB) as RB. pose proof (Z.mod_le a b ltac:(zlia) PB) as RA. set (r := a mod b) in *. set (w := 2 ^ (e - emin)) in *. assert (W : 0 < w) by (apply Z.pow_pos_nonneg; zlia).
  assert (SM : r < 2 ^ prec) by (destruct EL as (_ & _ & _ & [->| ->]); [unfold a in RA; rewrite Z.sub_diag in RA; cbn in RA; zlia | unfold b in RB; rewrite Z.sub_diag in RB; cbn in RB; zlia]).
  pose proof (normalize_rounded prec emax Hprec Hemax (if s1 then - r else r) e emin s1 ltac:(zlia) ltac:(zlia)) as R. rewrite Z.sub_diag in R. change (2 ^ 0) with 1 in R. fold w in R.
  change (if s1 then - r else r) with (signed s1 r) in R |- *.
  assert (AR : Z.abs (signed s1 r) = r) by (destruct s1; cbn [signed]; zlia).
  assert (RT : r * w < top) by (rewrite KA in K1; nia).
  destruct (number_of prec emax Hprec Hemax (signed s1 r) (e - emin)) as (z & VZ & NZ' & KZ); [zlia | zlia | rewrite AR; fold w; zlia|]. fold w in KZ.
  assert (K : key (binary_normalize prec emax (signed s1 r) e s1) = signed s1 r * w) by (rewrite <- KZ; refine (rounded_exact prec emax (signed s1 r * w) 1 z _ _ R VZ NZ' _); zlia).
  destruct R as (V & N & _). split; [exact V|]. split; [apply finite_key; [exact V | exact N|]; rewrite K, Z.abs_mul, AR, (Z.abs_eq w) by (clear - W; zlia); exact RT|]. rewrite K, !(key_signed prec emax), KA, KB. clear - PA PB W. clearbody w a. subst r. rewrite rem_signed by nia.
  rewrite Z.mul_mod_distr_r by zlia. destruct s1; cbn [signed]; ring.
Qed.

(** ** Truncation *)
Lemma quot_signed s a b : 0 <= a -> 0 < b -> Z.quot (signed s a) b = signed s (a / b).
Proof. intros A B. rewrite <- (Z.quot_div_nonneg a b) by zlia. destruct s; cbn [signed]; [apply Z.quot_opp_l; zlia | reflexivity]. Qed.
Lemma to_long_long_key x : valid x -> finite x -> to_long_long x = (require ((- 2 ^ 63 <=? Z.quot (key x) one) && (Z.quot (key x) one <? 2 ^ 63)) ;;; Done (Z.quot (key x) one)).
Proof.
  intros V F. pose proof one_pos as U. pose proof (emin_neg prec emax Hprec Hemax) as EN. destruct x as [s|s| |s m e]; try discriminate.
  - cbn [FloatSpec.key]. rewrite Z.quot_0_l by zlia. reflexivity.
  - destruct (valid_finite _ _ Hprec Hemax _ _ _ V) as ((E & B & _) & _ & K). cbn [to_long_long].
    replace (Z.quot (key (S754_finite s m e)) one) with (if s then - (if 0 <=? e then Zpos m * 2 ^ e else Zpos m / 2 ^ (- e)) else (if 0 <=? e then Zpos m * 2 ^ e else Zpos m / 2 ^ (- e))); [reflexivity|].
    rewrite (key_signed prec emax), quot_signed by zlia. change (if s then - ?a else ?a) with (signed s a). f_equal. destruct (Z.leb_spec 0 e).
    + replace (e - emin) with (e + - emin) by zlia. rewrite Z.pow_add_r, Z.mul_assoc, Z.div_mul by zlia. reflexivity.
    + replace one with (2 ^ (- e) * 2 ^ (e - emin)) by (rewrite pow_split by zlia; f_equal; zlia). rewrite Z.div_mul_cancel_r; [reflexivity| |]; apply Z.pow_nonzero; zlia.
Qed.

(** ** Integers *)
Lemma integer_top n : Z.abs n <= 2 ^ prec -> Z.abs n * one < top.
Proof.
  intros B. pose proof one_pos as U. pose proof (emin_neg prec emax Hprec Hemax) as EN. apply Z.le_lt_trans with (2 ^ prec * one); [apply Z.mul_le_mono_nonneg_r; zlia|]. rewrite pow_split by zlia. apply Z.pow_lt_mono_r; zlia.
Qed.
Lemma integer_number n : Z.abs n <= 2 ^ prec -> exists x, valid x /\ number x /\ key x = n * one.
Proof. intros B. pose proof (emin_neg prec emax Hprec Hemax). apply number_of; try assumption; [zlia|]. pose proof (integer_top n B). zlia. Qed.
(** A result whose exact value is an integer of at most prec bits is that integer. *)
Lemma integer_exact n m d y : 0 < d -> rounded m d y -> Z.abs n <= 2 ^ prec -> m = n * one * d -> valid y /\ finite y /\ key y = n * one.
Proof.
  intros D R B E. destruct (integer_number n B) as (x & VX & NX & KX). assert (K : key y = n * one) by (rewrite <- KX; apply (rounded_exact prec emax m d x y); try assumption; rewrite KX; zlia).
  destruct R as (V & N & _). split; [exact V|]. split; [|exact K]. apply finite_key; [exact V | exact N|]. rewrite K, Z.abs_mul, (Z.abs_eq one) by (pose proof one_pos; zlia). now apply integer_top.
Qed.
Lemma of_Z_exact n : Z.abs n <= 2 ^ prec -> valid (of_Z prec emax n) /\ finite (of_Z prec emax n) /\ key (of_Z prec emax n) = n * one.
Proof. intros B. apply (integer_exact n (n * one) 1); [zlia | now apply of_Z_rounded | exact B | zlia]. Qed.

(** ** Mod in a constant expression *)
(** Dividing integers and truncating gives the quotient of the integers. *)
Lemma one_big : 2 ^ prec <= one.
Proof. apply Z.pow_le_mono_r; unfold SpecFloat.emin; zlia. Qed.
Lemma rounded_opp n d y : rounded n d y -> rounded (- n) d (SFopp y).
Proof.
  intros (V & N & A & T). split; [now apply valid_opp|]. split; [destruct y; try discriminate; reflexivity|]. rewrite key_opp, even_opp.
  assert (S : forall k, Z.abs (- k * d - - n) = Z.abs (k * d - n)) by (intros; zlia). rewrite S.
  split; intros x VX NX; (assert (NO : number (SFopp x)) by (destruct x; try discriminate; reflexivity)); rewrite <- (Z.opp_involutive (key x)), S, <- key_opp; [apply A; [now apply valid_opp | exact NO]|].
  intros NE. apply T; [now apply valid_opp | exact NO|]. rewrite key_opp. rewrite key_opp in NE. zlia.
Qed.
Lemma positive_quotient A B y : 0 <= A < 2 ^ prec -> 0 < B <= 2 ^ prec -> rounded (A * one) B y -> 0 <= key y /\ key y / one = A / B.
Proof.
  intros HA HB RY. set (K := key y). assert (KY : key y = K) by reflexivity. clearbody K. pose proof one_pos as U. set (j := A / B). pose proof (Z.mul_div_le A B ltac:(zlia)) as M1. pose proof (Z.mul_succ_div_gt A B ltac:(zlia)) as M2. fold j in M1, M2.
  assert (J : 0 <= j /\ j + 1 <= 2 ^ prec) by (split; [apply Z.div_pos; zlia | nia]).
  destruct (integer_number j ltac:(zlia)) as (x & VX & NX & KX). destruct (integer_number (j + 1) ltac:(zlia)) as (x' & VX' & NX' & KX').
  assert (L : j * one <= K) by (rewrite <- KX, <- KY; apply (rounded_ge prec emax Hprec Hemax (A * one) B); try assumption; [zlia | rewrite KX; nia]).
  assert (H : K <= (j + 1) * one) by (rewrite <- KX', <- KY; apply (rounded_le prec emax Hprec Hemax (A * one) B); try assumption; [zlia | rewrite KX'; nia]).
  assert (NE : K <> (j + 1) * one).
  { intros E. rewrite E in KY. assert (DIST : Z.abs (key y * B - A * one) = ((j + 1) * B - A) * one) by (rewrite KY; replace ((j + 1) * one * B - A * one) with (((j + 1) * B - A) * one) by ring; apply Z.abs_eq; nia).
    assert (D1 : one <= ((j + 1) * B - A) * one) by nia. assert (PA : Z.abs (A * one) = A * one) by (apply Z.abs_eq; nia).
    destruct (Z.le_gt_cases (Z.abs (A * one)) (2 ^ prec * B)) as [S|G].
    - pose proof (rounded_subnormal prec emax Hprec Hemax (A * one) B y ltac:(zlia) RY S) as ER. rewrite DIST in ER. pose proof one_big. zlia.
    - assert (TB : Z.abs (A * one) <= top * B). { rewrite PA. pose proof (integer_top A ltac:(zlia)) as T. rewrite Z.abs_eq in T by zlia. nia. }
      pose proof (power_half prec Hprec) as PH. assert (PP : 0 < 2 ^ (prec - 1)) by (apply Z.pow_pos_nonneg; zlia).
      pose proof (rounded_relative prec emax Hprec Hemax (A * one) B y ltac:(zlia) RY ltac:(nia) TB) as ER. rewrite DIST, PA in ER. nia. }
  split; [nia|]. symmetry. apply (Z.div_unique K one j (K - one * j)); [left; zlia | ring].
Qed.
Lemma quot_signs X Y : Y <> 0 -> Z.quot X Y = Z.sgn X * Z.sgn Y * Z.quot (Z.abs X) (Z.abs Y).
Proof.
  intros NZ. destruct X as [|p|p], Y as [|r|r]; cbn [Z.sgn Z.abs]; try zlia; rewrite ?Z.quot_0_l by zlia; try reflexivity; change (Zneg p) with (- Zpos p); change (Zneg r) with (- Zpos r); rewrite ?Z.quot_opp_l, ?Z.quot_opp_r by zlia; rewrite ?Z.quot_opp_l by zlia; ring.
Qed.
Lemma sgn_cases a b : Z.sgn a * Z.sgn b = 0 \/ Z.sgn a * Z.sgn b = 1 \/ Z.sgn a * Z.sgn b = -1.
Proof. destruct a, b; cbn; auto. Qed.
Lemma quotient_finite A B z : 0 <= A < 2 ^ prec -> 0 < B <= 2 ^ prec -> rounded (A * one) B z -> finite z /\ 0 <= key z /\ key z / one = A / B.
Proof.
  intros HA HB R. destruct (positive_quotient A B z HA HB R) as (P & Q). split; [|split; assumption]. destruct R as (V & N & _). apply finite_key; [exact V | exact N|]. rewrite Z.abs_eq by exact P.
  assert (P0 : 0 < 2 ^ prec) by (apply Z.pow_pos_nonneg; zlia). pose proof (integer_top (2 ^ prec)) as T. rewrite Z.abs_eq in T by (clear - P0; zlia). specialize (T (Z.le_refl _)). pose proof one_pos as U. pose proof (Z.mul_succ_div_gt (key z) one U) as M.
  assert (QB : A / B < 2 ^ prec) by (clear - HA HB P0; apply Z.div_lt_upper_bound; nia). rewrite <- Q in QB. clear Q P HA HB V N. generalize dependent (key z). generalize dependent one. generalize dependent top. generalize dependent (2 ^ prec). intros; nia.
Qed.
Lemma integer_quotient x y X Y : valid x -> valid y -> finite x -> finite y -> key x = X * one -> key y = Y * one -> Z.abs X < 2 ^ prec -> 0 < Z.abs Y <= 2 ^ prec ->
  valid (SFdiv prec emax x y) /\ finite (SFdiv prec emax x y) /\ Z.quot (key (SFdiv prec emax x y)) one = Z.quot X Y.
Proof.
  intros VX VY FX FY KX KY BX BY. pose proof one_pos as U. assert (YZ : Y <> 0) by (clear - BY; zlia). assert (NZ : key y <> 0) by (rewrite KY; clear - YZ U; nia).
  pose proof (div_rounded prec emax Hprec Hemax x y VX VY FX FY NZ) as R. set (q := SFdiv prec emax x y) in *.
  assert (R' : rounded (Z.sgn X * Z.sgn Y * (Z.abs X * one)) (Z.abs Y) q).
  { refine (rounded_scale prec emax _ _ _ _ _ _ _ _ R); [clear - NZ; zlia | clear - BY; zlia|]. rewrite KX, KY. clear - U YZ. generalize dependent one. intros u U.
    replace (signed (Y * u <? 0) (X * u * u)) with (Z.sgn Y * (X * u * u)) by (destruct (Z.ltb_spec (Y * u) 0); cbn [signed]; [rewrite (Z.sgn_neg Y) by nia | rewrite (Z.sgn_pos Y) by nia]; ring).
    rewrite Z.abs_mul, (Z.abs_eq u) by zlia. rewrite <- (Z.abs_sgn X) at 1. ring. }
  assert (HA : 0 <= Z.abs X < 2 ^ prec) by (clear - BX; zlia). split; [apply R|]. rewrite (quot_signs X Y YZ). destruct (sgn_cases X Y) as [SG|[SG|SG]]; rewrite SG in *.
  - rewrite Z.mul_0_l in R'. assert (K : key q = 0). { refine (rounded_exact prec emax 0 (Z.abs Y) (S754_zero false) q _ R' eq_refl eq_refl _); [apply BY | reflexivity]. }
    split; [apply finite_key; [apply R | apply R|]; rewrite K; apply (top_pos prec emax Hprec Hemax)|]. rewrite K. apply Z.quot_0_l. clear - U. zlia.
  - rewrite Z.mul_1_l in R'. destruct (quotient_finite (Z.abs X) (Z.abs Y) q HA BY R') as (F & P & Q). split; [exact F|]. rewrite (Z.quot_div_nonneg (key q)), Q, Z.quot_div_nonneg by (assumption || apply Z.abs_nonneg || apply BY). ring.
  - replace (-1 * (Z.abs X * one)) with (- (Z.abs X * one)) in R' by ring. apply rounded_opp in R'. rewrite Z.opp_involutive in R'. destruct (quotient_finite (Z.abs X) (Z.abs Y) _ HA BY R') as (F & P & Q). rewrite key_opp in *.
    split; [destruct q; try discriminate; reflexivity|]. rewrite <- (Z.opp_involutive (key q)), Z.quot_opp_l by (clear - U; zlia). rewrite (Z.quot_div_nonneg (- key q)), Q, Z.quot_div_nonneg by (assumption || apply Z.abs_nonneg || apply BY). ring.
Qed.
Lemma quot_bounds X Y : Y <> 0 -> Z.abs (Z.quot X Y) <= Z.abs X /\ Z.abs (Z.quot X Y * Y) <= Z.abs X /\ X - Z.quot X Y * Y = Z.rem X Y /\ Z.abs (Z.rem X Y) <= Z.abs X.
Proof.
  clear. intros NZ. pose proof (Z.quot_rem X Y NZ) as QR. assert (PY : 0 < Z.abs Y) by (apply Z.abs_pos; exact NZ). pose proof (Z.abs_nonneg X) as PX.
  assert (E : Z.abs (Z.quot X Y) = Z.abs X / Z.abs Y) by (rewrite <- Z.quot_abs by exact NZ; apply Z.quot_div_nonneg; [exact PX | exact PY]).
  pose proof (Z.mul_div_le (Z.abs X) (Z.abs Y) PY) as M.
  assert (R : Z.abs (Z.rem X Y) <= Z.abs X) by (rewrite <- Z.rem_abs by exact NZ; rewrite Z.rem_mod_nonneg by assumption; apply Z.mod_le; assumption).
  assert (D : Z.abs X / Z.abs Y <= Z.abs X) by (apply Z.div_le_upper_bound; [exact PY | rewrite <- (Z.mul_1_l (Z.abs X)) at 1; apply Z.mul_le_mono_nonneg_r; [exact PX | clear - PY; zlia]]).
  rewrite Z.abs_mul, E. split; [exact D|]. split; [rewrite Z.mul_comm; exact M|]. split; [|exact R].
  rewrite QR at 1. rewrite (Z.mul_comm Y). apply Z.add_simpl_l.
Qed.
Lemma mod_integers x y X Y : valid x -> valid y -> finite x -> finite y -> key x = X * one -> key y = Y * one -> Z.abs X < 2 ^ Z.min prec 63 -> 0 < Z.abs Y <= 2 ^ prec ->
  exists r, FloatMod prec emax true x y = Done r /\ valid r /\ finite r /\ key r = Z.rem X Y * one.
Proof.
  intros VX VY FX FY KX KY BX BY. pose proof one_pos as U. assert (BX' : Z.abs X < 2 ^ prec) by (apply Z.lt_le_trans with (2 ^ Z.min prec 63); [exact BX | apply Z.pow_le_mono_r; [zlia | apply Z.le_min_l]]).
  assert (BX63 : Z.abs X < 2 ^ 63) by (apply Z.lt_le_trans with (2 ^ Z.min prec 63); [exact BX | apply Z.pow_le_mono_r; [zlia | apply Z.le_min_r]]).
  destruct (integer_quotient x y X Y VX VY FX FY KX KY BX' BY) as (VQ & FQ & QQ). unfold FloatMod. rewrite (to_long_long_key _ VQ FQ), QQ. clear VQ FQ QQ BX.
  destruct (quot_bounds X Y) as (B1 & B2 & RR & B3); [clear - BY; zlia|]. set (q := Z.quot X Y) in *. clearbody q.
  replace ((- 2 ^ 63 <=? q) && (q <? 2 ^ 63))%bool with true by (symmetry; rewrite andb_true_iff, Z.leb_le, Z.ltb_lt; clear - BX63 B1; zlia). cbn [bind require].
  destruct (of_Z_exact q) as (VO & FO & KO); [clear - B1 BX'; zlia|].
  destruct (integer_exact (q * Y) (key (of_Z prec emax q) * key y) one (SFmul prec emax (of_Z prec emax q) y) U) as (VM & FM & KM); [now apply mul_rounded | clear - B2 BX'; zlia | rewrite KO, KY; ring|].
  destruct (integer_exact (Z.rem X Y) (key x - key (SFmul prec emax (of_Z prec emax q) y)) 1 (SFsub prec emax x (SFmul prec emax (of_Z prec emax q) y)) Z.lt_0_1) as (VR & FR & KR); [now apply sub_rounded | clear - B3 BX'; zlia | rewrite KX, KM, <- RR; ring|].
  eexists. split; [reflexivity|]. split; [exact VR|]. split; [exact FR|exact KR].
Qed.

(** A dividend smaller than the divisor *)
Lemma smaller_ratio x y : valid x -> valid y -> finite x -> finite y -> Z.abs (key x) < Z.abs (key y) -> Z.abs (key x) * 2 ^ prec <= (2 ^ prec - 1) * Z.abs (key y).
Proof.
  intros VX VY FX FY L. assert (PP : 0 < 2 ^ (prec - 1)) by (apply Z.pow_pos_nonneg; zlia). pose proof (power_half prec Hprec) as PH.
  assert (AB : forall s k, 0 <= k -> Z.abs (signed s k) = k) by (intros []; cbn [signed]; zlia).
  destruct (magnitude prec emax Hprec Hemax x VX (finite_number x FX)) as [K|(s & m & e & C & K & B)]; [rewrite K; cbn [Z.abs]; nia|].
  destruct (magnitude prec emax Hprec Hemax y VY (finite_number y FY)) as [K'|(s' & m' & e' & C' & K' & B')]; [rewrite K' in L; cbn in L; zlia|].
  rewrite K, K' in *. rewrite !AB in * by zlia. assert (E : emin <= e) by (destruct C; zlia). assert (E' : emin <= e') by (destruct C'; zlia). set (w := 2 ^ (e' - emin)) in *. assert (W : 0 < w) by (apply Z.pow_pos_nonneg; zlia).
  destruct (Z.le_gt_cases e' e) as [LE|GT].
  - assert (S : m * 2 ^ (e - emin) = m * 2 ^ (e - e') * w) by (unfold w; rewrite <- Z.mul_assoc, pow_split by zlia; do 2 f_equal; zlia). rewrite S in *. set (j := m * 2 ^ (e - e')) in *. apply Z.mul_lt_mono_pos_r in L; [|exact W]. destruct C' as (_ & M' & _).
    clearbody j w. assert (j * 2 ^ prec <= (2 ^ prec - 1) * m') by nia. nia.
  - destruct C as (_ & M & _). destruct C' as (_ & M' & N'). specialize (N' ltac:(zlia)).
    assert (S : w = 2 * 2 ^ (e' - emin - 1)) by (unfold w; rewrite <- Z.pow_succ_r by zlia; f_equal; zlia). set (v := 2 ^ (e' - emin - 1)) in *. assert (V0 : 0 < v) by (apply Z.pow_pos_nonneg; zlia).
    assert (X : m * 2 ^ (e - emin) <= (2 ^ prec - 1) * v) by (apply Z.mul_le_mono_nonneg; [zlia | zlia | apply Z.pow_nonneg; zlia | apply Z.pow_le_mono_r; zlia]).
    rewrite S, PH in *. set (h := 2 ^ (prec - 1)) in *. clearbody h v. apply Z.le_trans with ((2 * h - 1) * v * (2 * h)); [apply Z.mul_le_mono_nonneg_r; zlia|]. assert (h * v <= m' * v) by (apply Z.mul_le_mono_nonneg_r; zlia). nia.
Qed.
Lemma mod_smaller x y : valid x -> valid y -> finite x -> finite y -> Z.abs (key x) < Z.abs (key y) -> exists r, FloatMod prec emax true x y = Done r /\ valid r /\ finite r /\ key r = key x.
Proof.
  intros VX VY FX FY L. pose proof one_pos as U. pose proof (smaller_ratio x y VX VY FX FY L) as RT. assert (NZ : key y <> 0) by (intros E; rewrite E in L; cbn in L; zlia).
  pose proof (div_rounded prec emax Hprec Hemax x y VX VY FX FY NZ) as R. set (q := SFdiv prec emax x y) in *. pose proof (emin_neg prec emax Hprec Hemax) as EN.
  assert (PP : 0 < 2 ^ prec) by (apply Z.pow_pos_nonneg; zlia). assert (ES : 0 <= - emin - prec) by (unfold SpecFloat.emin; zlia). assert (OS : one = 2 ^ prec * 2 ^ (- emin - prec)) by (rewrite pow_split by zlia; f_equal; zlia).
  set (v := 2 ^ (- emin - prec)) in *. assert (V0 : 0 < v) by (apply Z.pow_pos_nonneg; zlia). assert (T1 : one < top) by (apply Z.pow_lt_mono_r; zlia).
  destruct (number_of prec emax Hprec Hemax (2 ^ prec - 1) (- emin - prec)) as (p & VP & NP & KP); [zlia | exact ES | rewrite Z.abs_eq by zlia; fold v; nia|]. fold v in KP.
  destruct (number_of prec emax Hprec Hemax (- (2 ^ prec - 1)) (- emin - prec)) as (p' & VP' & NP' & KP'); [zlia | exact ES | rewrite Z.abs_opp, Z.abs_eq by zlia; fold v; nia|]. fold v in KP'.
  assert (NB : Z.abs (signed (key y <? 0) (key x * one)) <= (2 ^ prec - 1) * v * Z.abs (key y)).
  { replace (Z.abs (signed _ _)) with (Z.abs (key x) * one) by (destruct (key y <? 0); cbn [signed]; rewrite ?Z.abs_opp, Z.abs_mul, (Z.abs_eq one) by zlia; reflexivity). rewrite OS. nia. }
  assert (UP : key q <= key p) by (refine (rounded_le prec emax Hprec Hemax _ _ p q _ R VP NP _); [zlia | rewrite KP; zlia]).
  assert (DN : key p' <= key q) by (refine (rounded_ge prec emax Hprec Hemax _ _ p' q _ R VP' NP' _); [zlia | rewrite KP'; zlia]).
  assert (KQ : Z.abs (key q) < one) by (rewrite KP in UP; rewrite KP' in DN; rewrite OS; clear - UP DN V0 PP; nia). assert (FQ : finite q) by (apply finite_key; [apply R | apply R | clear - KQ T1; zlia]). assert (VQ : valid q) by apply R.
  assert (Q0 : Z.quot (key q) one = 0) by (apply Z.quot_small_iff; [clear - U; zlia | rewrite (Z.abs_eq one) by (clear - U; zlia); exact KQ]).
  unfold FloatMod. fold q. rewrite (to_long_long_key q VQ FQ), Q0. change ((- 2 ^ 63 <=? 0) && (0 <? 2 ^ 63))%bool with true. cbn [bind require]. change (of_Z prec emax 0) with (S754_zero false). clear - VX FX FY VY NZ.
  eexists. split; [reflexivity|]. destruct y as [sy|sy| |sy my ey]; try discriminate; [contradiction|]. cbn [SFmul]. destruct x as [sx|sx| |sx mx ex]; try discriminate; cbn [SFsub]; [|repeat split; assumption].
  destruct (Bool.eqb sx _); repeat split.
Qed.
End Format.
