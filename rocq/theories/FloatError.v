(** What correct rounding gives: uniqueness, monotonicity, exactness, bounds of the error, truncation and integers; std::fma and std::fmod. *)
From Verif Require Import FloatSpec FloatModel FloatProofs FloatRound.
Open Scope Z_scope.
(** lia without the boolean hypotheses, which make it slow *)
Local Ltac zlia := repeat match goal with H : @eq bool _ _ |- _ => clear H end; lia.

Section Format.
Variables prec emax : Z.
Hypothesis Hprec : 1 < prec.
Hypothesis Hemax : prec < emax.
Local Notation emin := (emin prec emax).
Local Notation fexp := (fexp prec emax).
Local Notation valid x := (valid_binary prec emax x = true).
Local Notation number x := (std_isnan x = false).
Local Notation finite x := (std_isfinite x = true).
Local Notation top := (top prec emax).
Local Notation key := (key prec emax).
Local Notation canon := (canon prec emax).
Local Notation pack := (pack prec emax).
Local Notation rounded := (rounded prec emax).

(** ** Neighbours have different parities *)
Lemma power_half : 2 ^ prec = 2 * 2 ^ (prec - 1).
Proof. rewrite <- Z.pow_succ_r by zlia. f_equal. zlia. Qed.
Lemma even_key x y : valid x -> valid y -> number x -> number y -> key x = key y -> even_number x = even_number y.
Proof.
  intros VX VY NX NY E. pose proof (top_pos prec emax Hprec Hemax) as TP. destruct x as [s|s| |s m e]; try discriminate; destruct y as [t|t| |t m' e']; try discriminate; try reflexivity.
  - exfalso. destruct (valid_finite _ _ Hprec Hemax _ _ _ VY) as (_ & _ & B). destruct t; cbn [FloatSpec.key] in E; zlia.
  - exfalso. destruct (valid_finite _ _ Hprec Hemax _ _ _ VY) as (_ & _ & B). destruct s, t; cbn [FloatSpec.key] in E; zlia.
  - exfalso. destruct (valid_finite _ _ Hprec Hemax _ _ _ VX) as (_ & _ & B). destruct s; cbn [FloatSpec.key] in E; zlia.
  - exfalso. destruct (valid_finite _ _ Hprec Hemax _ _ _ VX) as (_ & _ & B). destruct s, t; cbn [FloatSpec.key] in E; zlia.
  - destruct (valid_finite _ _ Hprec Hemax _ _ _ VX) as (C & _ & B). destruct (valid_finite _ _ Hprec Hemax _ _ _ VY) as (C' & _ & B').
    assert (K : Zpos m * 2 ^ (e - emin) = Zpos m' * 2 ^ (e' - emin)) by (destruct s, t; cbn [FloatSpec.key] in E; zlia).
    assert (EE : e = e').
    { destruct (Z.lt_trichotomy e e') as [L|[L|L]]; [|exact L|]; exfalso; [pose proof (canon_lt prec emax Hprec _ _ _ _ C C' L) | pose proof (canon_lt prec emax Hprec _ _ _ _ C' C L)]; zlia. }
    subst e'. apply Z.mul_reg_r in K; [now injection K as ->|]. assert (0 < 2 ^ (e - emin)) by (apply Z.pow_pos_nonneg; destruct C; zlia). zlia.
Qed.
Lemma even_opp x : even_number (SFopp x) = even_number x.
Proof. destruct x; reflexivity. Qed.
Lemma above_magnitude m e z : canon m e -> valid z -> number z -> m * 2 ^ (e - emin) < key z -> (m + 1) * 2 ^ (e - emin) <= key z.
Proof.
  intros C V N L. assert (P : 0 < 2 ^ (e - emin)) by (apply Z.pow_pos_nonneg; destruct C; zlia). assert (M : 0 < m) by (destruct C; zlia).
  destruct (magnitude prec emax Hprec Hemax z V N) as [K|(s & mz & ez & CZ & K & B)]; [rewrite K in *; nia|]. rewrite K in *. destruct s; cbn [signed] in *; [nia|].
  destruct (Z.le_gt_cases e ez) as [LE|GT].
  - replace (ez - emin) with ((ez - e) + (e - emin)) in * by zlia. assert (emin <= e) by (destruct C; zlia). rewrite Z.pow_add_r in * by zlia. rewrite Z.mul_assoc in *. apply Z.mul_lt_mono_pos_r in L; [|exact P]. apply Z.mul_le_mono_nonneg_r; zlia.
  - pose proof (canon_lt prec emax Hprec _ _ _ _ CZ C GT). zlia.
Qed.
Lemma successor x : valid x -> number x -> 0 <= key x < top ->
  exists y, valid y /\ number y /\ key x < key y /\ even_number y = negb (even_number x) /\ (forall z, valid z -> number z -> key x < key z -> key y <= key z).
Proof.
  intros V N B. pose proof power_half as PH. assert (PP : 0 < 2 ^ (prec - 1)) by (apply Z.pow_pos_nonneg; zlia). destruct x as [s|s| |s m e]; try discriminate.
  - assert (C1 : canon 1 emin) by (split; [zlia|]; split; zlia). exists (S754_finite false 1 emin). split; [apply (bounded_canon prec emax Hprec Hemax); split; [exact C1 | unfold SpecFloat.emin; zlia]|].
    split; [reflexivity|]. cbn [FloatSpec.key]. rewrite Z.sub_diag. split; [cbn; zlia|]. split; [reflexivity|]. intros z VZ NZ L. cbn; zlia.
  - exfalso. pose proof (top_pos prec emax Hprec Hemax). destruct s; cbn [FloatSpec.key] in B; zlia.
  - destruct (valid_finite _ _ Hprec Hemax _ _ _ V) as (C & E & BM). assert (s = false) by (destruct s; [cbn [FloatSpec.key] in B; zlia | reflexivity]). subst s. change (key (S754_finite false m e)) with (Zpos m * 2 ^ (e - emin)) in *.
    assert (EM : emin <= e) by (destruct C; zlia). assert (P : 0 < 2 ^ (e - emin)) by (apply Z.pow_pos_nonneg; zlia).
    destruct (Z.lt_ge_cases (Zpos m + 1) (2 ^ prec)) as [L|G].
    + assert (C1 : canon (Zpos (m + 1)) e) by (destruct C as (? & ? & ?); split; [zlia|]; split; [zlia|]; intros; zlia).
      exists (S754_finite false (m + 1) e). split; [apply (bounded_canon prec emax Hprec Hemax); split; assumption|]. split; [reflexivity|]. change (key (S754_finite false (m + 1) e)) with (Zpos (m + 1) * 2 ^ (e - emin)).
      split; [apply Z.mul_lt_mono_pos_r; zlia|]. split; [cbn [even_number]; rewrite Pos2Z.inj_add, Z.even_add; destruct (Z.even (Zpos m)); reflexivity|]. intros z VZ NZ LZ. rewrite Pos2Z.inj_add. now apply above_magnitude.
    + assert (M : Zpos m + 1 = 2 ^ prec) by (destruct C as (? & ? & ?); zlia). assert (C1 : canon (2 ^ (prec - 1)) (e + 1)) by (split; [zlia|]; split; zlia).
      destruct (pack_key prec emax Hprec Hemax false _ _ C1) as (A1 & A2 & A3). exists (pack false (2 ^ (prec - 1)) (e + 1)). split; [exact A1|]. split; [exact A2|]. rewrite A3. cbn [signed].
      assert (VV : 2 ^ (prec - 1) * 2 ^ (e + 1 - emin) = (Zpos m + 1) * 2 ^ (e - emin)) by (replace (e + 1 - emin) with (Z.succ (e - emin)) by zlia; rewrite Z.pow_succ_r, M, PH by zlia; ring).
      rewrite VV. split; [rewrite Z.mul_add_distr_r; zlia|]. split.
      * cbn [even_number]. assert (EV : Z.even (Zpos m) = false) by (replace (Zpos m) with (2 ^ prec - 1) by zlia; rewrite Z.even_sub, Z.even_pow by zlia; reflexivity). rewrite EV. cbn [negb].
        destruct (2 ^ (prec - 1)) as [|p|p] eqn:EP; cbn [FloatProofs.pack]; [reflexivity| |reflexivity]. destruct (e + 1 <=? emax - prec); [|reflexivity]. cbn [even_number]. rewrite <- EP. rewrite Z.even_pow by zlia. reflexivity.
      * intros z VZ NZ LZ. pose proof (above_magnitude _ _ z C VZ NZ LZ). zlia.
Qed.
Lemma neighbours y z : valid y -> number y -> valid z -> number z -> key y < key z -> (forall x, valid x -> number x -> ~ key y < key x < key z) -> even_number z = negb (even_number y).
Proof.
  intros VY NY VZ NZ L ADJ. pose proof (key_range prec emax Hprec Hemax y VY) as RY. pose proof (key_range prec emax Hprec Hemax z VZ) as RZ.
  destruct (Z.le_gt_cases 0 (key y)) as [Y0|Y0].
  - destruct (successor y VY NY) as (s & VS & NS & LS & EV & LEAST); [zlia|]. rewrite <- EV. apply even_key; try assumption. specialize (LEAST z VZ NZ L). specialize (ADJ s VS NS). zlia.
  - destruct (Z.lt_ge_cases 0 (key z)) as [Z0|Z0]; [exfalso; apply (ADJ (S754_zero false)); [reflexivity | reflexivity|]; cbn [FloatSpec.key]; zlia|].
    assert (NO : number (SFopp z) /\ number (SFopp y)) by (destruct z, y; try discriminate; split; reflexivity). destruct NO as (NOZ & NOY). pose proof (valid_opp prec emax z VZ) as VOZ. pose proof (valid_opp prec emax y VY) as VOY.
    destruct (successor (SFopp z) VOZ NOZ) as (s & VS & NS & LS & EV & LEAST); [rewrite key_opp; zlia|]. specialize (LEAST (SFopp y) VOY NOY). rewrite !key_opp in *. specialize (LEAST (proj1 (Z.opp_lt_mono _ _) L)).
    assert (KS : key s = - key y). { assert (NSO : number (SFopp s)) by (destruct s; try discriminate; reflexivity). specialize (ADJ (SFopp s) (valid_opp prec emax s VS) NSO). rewrite key_opp in ADJ. clear - LEAST LS ADJ. generalize dependent (key s). generalize dependent (key y). generalize dependent (key z). intros; zlia. }
    rewrite <- even_opp. rewrite <- (even_opp y). assert (E : even_number s = even_number (SFopp y)) by (apply even_key; try assumption; rewrite key_opp; exact KS). rewrite <- E, EV. now rewrite Bool.negb_involutive.
Qed.

(** ** Rounding is monotone and unique *)
Lemma rounded_order n n' d y y' : 0 < d -> rounded n d y -> rounded n' d y' -> n <= n' -> key y <= key y'.
Proof.
  intros D (V & N & A & T) (V' & N' & A' & T') L. destruct (Z.le_gt_cases (key y) (key y')) as [LE|GT]; [exact LE|exfalso].
  assert (DD : key y' * d < key y * d) by (apply Z.mul_lt_mono_pos_r; assumption). pose proof (A y' V' N') as A1. pose proof (A' y V N) as A1'.
  assert (n' = n) by zlia. subst n'. assert (TIE : Z.abs (key y * d - n) = Z.abs (key y' * d - n)) by zlia.
  pose proof (T y' V' N' ltac:(zlia) TIE) as EV. pose proof (T' y V N ltac:(zlia) (eq_sym TIE)) as EV'.
  enough (E : even_number y = negb (even_number y')) by (rewrite EV, EV' in E; discriminate). apply neighbours; try assumption. intros x VX NX (L1 & L2). specialize (A x VX NX).
  assert (key y' * d < key x * d) by (apply Z.mul_lt_mono_pos_r; assumption). assert (key x * d < key y * d) by (apply Z.mul_lt_mono_pos_r; assumption). zlia.
Qed.
Lemma rounded_mono n d n' d' y y' : 0 < d -> 0 < d' -> rounded n d y -> rounded n' d' y' -> n * d' <= n' * d -> key y <= key y'.
Proof.
  intros D D' R R' L. apply (rounded_order (n * d') (n' * d) (d * d')); [nia| | |exact L].
  - apply (rounded_scale prec emax n d); [zlia | nia | ring | exact R].
  - apply (rounded_scale prec emax n' d'); [zlia | nia | ring | exact R'].
Qed.
Lemma rounded_unique n d n' d' y y' : 0 < d -> 0 < d' -> rounded n d y -> rounded n' d' y' -> n * d' = n' * d -> key y = key y'.
Proof. intros D D' R R' E. apply Z.le_antisymm; [apply (rounded_mono n d n' d') | apply (rounded_mono n' d' n d)]; auto; zlia. Qed.
Lemma rounded_exact n d x y : 0 < d -> rounded n d y -> valid x -> number x -> key x * d = n -> key y = key x.
Proof. intros D (V & N & A & _) VX NX E. specialize (A x VX NX). rewrite E, Z.sub_diag in A. cbn [Z.abs] in A. assert (K : key y * d = key x * d) by zlia. apply Z.mul_reg_r in K; zlia. Qed.
Lemma rounded_le n d x y : 0 < d -> rounded n d y -> valid x -> number x -> n <= key x * d -> key y <= key x.
Proof. intros D R VX NX L. apply (rounded_order n (key x * d) d); [exact D | exact R | now apply self_rounded | exact L]. Qed.
Lemma rounded_ge n d x y : 0 < d -> rounded n d y -> valid x -> number x -> key x * d <= n -> key x <= key y.
Proof. intros D R VX NX L. apply (rounded_order (key x * d) n d); [exact D | now apply self_rounded | exact R | exact L]. Qed.

(** ** Which multiples are numbers *)
Lemma canon_of j k : 0 < j < 2 ^ prec -> 0 <= k -> exists m e, canon m e /\ m * 2 ^ (e - emin) = j * 2 ^ k.
Proof.
  intros J K. destruct j as [|p|p]; [zlia| |zlia]. pose proof (digits2_bounds p) as B. set (dg := Zpos (digits2_pos p)) in *. assert (D0 : 0 < dg) by (unfold dg; zlia).
  assert (DP : dg - 1 < prec) by (apply (Z.pow_lt_mono_r_iff 2); zlia). set (t := Z.min k (prec - dg)). assert (T0 : 0 <= t <= k) by (unfold t; zlia). assert (P : 0 < 2 ^ t) by (apply Z.pow_pos_nonneg; zlia).
  exists (Zpos p * 2 ^ t), (k - t + emin). split; [split; [zlia|]; split|].
  - split; [nia|]. apply Z.lt_le_trans with (2 ^ dg * 2 ^ t); [apply Z.mul_lt_mono_pos_r; zlia|]. rewrite <- Z.pow_add_r by zlia. apply Z.pow_le_mono_r; unfold t; zlia.
  - intros L. assert (TT : t = prec - dg) by (unfold t in *; zlia). apply Z.le_trans with (2 ^ (dg - 1) * 2 ^ t); [|apply Z.mul_le_mono_nonneg_r; zlia]. rewrite <- Z.pow_add_r by zlia. apply Z.pow_le_mono_r; zlia.
  - replace (k - t + emin - emin) with (k - t) by zlia. rewrite <- Z.mul_assoc, <- Z.pow_add_r by zlia. do 2 f_equal. zlia.
Qed.
Lemma number_of j k : Z.abs j <= 2 ^ prec -> 0 <= k -> Z.abs j * 2 ^ k <= top -> exists x, valid x /\ number x /\ key x = j * 2 ^ k.
Proof.
  intros J K T. destruct (Z.eq_dec j 0) as [->|NZ]; [exists (S754_zero false); repeat split|].
  assert (C : exists m e, canon m e /\ m * 2 ^ (e - emin) = Z.abs j * 2 ^ k).
  { destruct (Z.eq_dec (Z.abs j) (2 ^ prec)) as [F|NF]; [|apply canon_of; zlia]. rewrite F, power_half. destruct (canon_of (2 ^ (prec - 1)) (k + 1)) as (m & e & C & E); [split; [apply Z.pow_pos_nonneg; zlia | apply Z.pow_lt_mono_r; zlia] | zlia|].
    exists m, e. split; [exact C|]. rewrite E, Z.pow_add_r by zlia. ring. }
  destruct C as (m & e & C & E). destruct (pack_key prec emax Hprec Hemax (j <? 0) m e C) as (A1 & A2 & A3). exists (pack (j <? 0) m e). split; [exact A1|]. split; [exact A2|]. rewrite A3, E, Z.min_l by exact T.
  destruct (Z.ltb_spec j 0); cbn [signed]; [rewrite Z.abs_neq by zlia; ring | rewrite Z.abs_eq by zlia; reflexivity].
Qed.

(** ** Bounds of the error: half a unit for subnormal results, relative error 2^-prec for the others *)
Lemma rounded_subnormal n d y : 0 < d -> rounded n d y -> Z.abs n <= 2 ^ prec * d -> 2 * Z.abs (key y * d - n) <= d.
Proof.
  intros D (_ & _ & A & _) B. set (j := n / d). pose proof (Z_div_mod_eq_full n d) as E. fold j in E. pose proof (Z.mod_pos_bound n d D) as R. set (r := n mod d) in *.
  assert (TB : 2 ^ prec <= top) by (apply Z.pow_le_mono_r; unfold SpecFloat.emin; zlia).
  assert (J1 : Z.abs j <= 2 ^ prec) by nia. assert (J2 : r <> 0 -> Z.abs (j + 1) <= 2 ^ prec) by (intros; nia).
  destruct (number_of j 0 J1 ltac:(zlia)) as (x & VX & NX & KX); [cbn; zlia|]. rewrite Z.mul_1_r in KX. pose proof (A x VX NX) as AX. rewrite KX in AX.
  destruct (Z.eq_dec r 0) as [R0|R0]; [zlia|]. destruct (number_of (j + 1) 0 (J2 R0) ltac:(zlia)) as (x' & VX' & NX' & KX'); [specialize (J2 R0); cbn; zlia|]. rewrite Z.mul_1_r in KX'. pose proof (A x' VX' NX') as AX'. rewrite KX' in AX'. zlia.
Qed.
Lemma rounded_relative n d y : 0 < d -> rounded n d y -> 2 ^ (prec - 1) * d <= Z.abs n -> Z.abs n <= top * d -> 2 ^ prec * Z.abs (key y * d - n) <= Z.abs n.
Proof.
  intros D (_ & _ & A & _) LO HI. pose proof power_half as PH. assert (PP : 0 < 2 ^ (prec - 1)) by (apply Z.pow_pos_nonneg; zlia).
  assert (K : exists k, 0 <= k /\ 2 ^ (prec - 1) * (2 ^ k * d) <= Z.abs n < 2 ^ prec * (2 ^ k * d)).
  { set (v := Z.abs n / (2 ^ (prec - 1) * d)). assert (PD : 0 < 2 ^ (prec - 1) * d) by nia. assert (V1 : 1 <= v) by (apply Z.div_le_lower_bound; zlia). exists (Z.log2 v). split; [apply Z.log2_nonneg|].
    pose proof (Z.log2_spec v ltac:(zlia)) as LG. rewrite Z.pow_succ_r in LG by apply Z.log2_nonneg. pose proof (Z.mul_div_le (Z.abs n) _ PD) as M1. pose proof (Z.mul_succ_div_gt (Z.abs n) _ PD) as M2. fold v in M1, M2. set (w := 2 ^ Z.log2 v) in *. rewrite PH. split; nia. }
  destruct K as (k & K0 & KL & KH). set (w := 2 ^ k) in *. assert (W : 0 < w) by (apply Z.pow_pos_nonneg; zlia). assert (WD : 0 < w * d) by nia.
  set (j := Z.abs n / (w * d)). pose proof (Z.mul_div_le (Z.abs n) _ WD) as M1. pose proof (Z.mul_succ_div_gt (Z.abs n) _ WD) as M2. fold j in M1, M2.
  assert (J0 : 2 ^ (prec - 1) <= j < 2 ^ prec) by (split; [apply Z.div_le_lower_bound; zlia | apply Z.div_lt_upper_bound; zlia]).
  assert (TW : exists t, top = t * w).
  { destruct (Z.le_gt_cases k (emax - emin)) as [LE|GT].
    - exists (2 ^ (emax - emin - k)). unfold w, FloatSpec.top. rewrite <- Z.pow_add_r by zlia. f_equal. zlia.
    - exfalso. assert (top < w) by (apply Z.pow_lt_mono_r; unfold SpecFloat.emin in *; zlia). nia. }
  destruct TW as (t & TW). assert (JT : j * w <= top) by nia. assert (JT' : Z.abs n <> j * w * d -> (j + 1) * w <= top).
  { intros NE. assert (j < t) by nia. nia. }
  set (sg := Z.sgn n). assert (SG : Z.abs sg = 1) by (unfold sg; destruct n; try reflexivity; exfalso; cbn in LO; nia). assert (SN : n = sg * Z.abs n) by (unfold sg; symmetry; rewrite Z.mul_comm; apply Z.abs_sgn).
  assert (DIST : forall a, Z.abs (sg * a * w * d - n) = Z.abs (a * w * d - Z.abs n)).
  { intros a. rewrite SN at 1. replace (sg * a * w * d - sg * Z.abs n) with (sg * (a * w * d - Z.abs n)) by ring. rewrite Z.abs_mul, SG. zlia. }
  destruct (number_of (sg * j) k) as (x & VX & NX & KX); [rewrite Z.abs_mul, SG; zlia | exact K0 | rewrite Z.abs_mul, SG; fold w; zlia|]. fold w in KX.
  pose proof (A x VX NX) as AX. rewrite KX, DIST in AX.
  assert (HALF : 2 * Z.abs (key y * d - n) <= w * d).
  { destruct (Z.eq_dec (Z.abs n) (j * w * d)) as [E|NE]; [rewrite E, Z.sub_diag in AX; cbn [Z.abs] in AX; zlia|]. specialize (JT' NE).
    destruct (number_of (sg * (j + 1)) k) as (x' & VX' & NX' & KX'); [rewrite Z.abs_mul, SG; zlia | exact K0 | rewrite Z.abs_mul, SG; fold w; zlia|]. fold w in KX'.
    pose proof (A x' VX' NX') as AX'. rewrite KX', DIST in AX'. set (err := Z.abs (key y * d - n)) in *. clearbody err. nia. }
  set (err := Z.abs (key y * d - n)) in *. rewrite PH. apply Z.le_trans with (2 ^ (prec - 1) * (w * d)); [|exact KL]. replace (2 * 2 ^ (prec - 1) * err) with (2 ^ (prec - 1) * (2 * err)) by ring. apply Z.mul_le_mono_nonneg_l; zlia.
Qed.
End Format.
