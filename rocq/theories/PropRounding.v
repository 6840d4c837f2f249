(** Properties C88 and C90-C93 continued, and C106: correct rounding, and what follows from it for the functions of MathUtils on floating point types. *)
From Verif Require Import FloatSpec FloatModel FloatProofs FloatRound FloatError FloatOps PropFloat.
Open Scope Z_scope.
(** lia without the boolean hypotheses, which make it slow *)
Local Ltac zlia := repeat match goal with H : @eq bool _ _ |- _ => clear H end; lia.

(** a / b is within (1 + 2^-prec)^j of 1. *)
Definition near (prec : Z) (j : nat) (a b : Z) : Prop := (2 ^ prec) ^ Z.of_nat j * Z.abs (a - b) <= ((2 ^ prec + 1) ^ Z.of_nat j - (2 ^ prec) ^ Z.of_nat j) * Z.abs b.

Lemma near_arith u u' v v' ab bc ac bb cc : 0 < u -> 0 < v -> u <= u' -> v <= v' -> ac <= ab + bc -> bb <= cc + bc -> u * ab <= (u' - u) * bb -> v * bc <= (v' - v) * cc -> u * v * ac <= (u' * v' - u * v) * cc.
Proof.
  intros A1 A2 B1 B2 TR BC H1 H2. assert (S0 : u * v * ac <= u * v * (ab + bc)) by (apply Z.mul_le_mono_nonneg_l; nia).
  assert (S2 : v * (u * ab) <= v * ((u' - u) * bb)) by (apply Z.mul_le_mono_nonneg_l; zlia). assert (S3 : u * (v * bc) <= u * ((v' - v) * cc)) by (apply Z.mul_le_mono_nonneg_l; zlia).
  assert (S4 : v * bb <= v * (cc + bc)) by (apply Z.mul_le_mono_nonneg_l; zlia). assert (S5 : v * bb <= v' * cc) by zlia. assert (S6 : (u' - u) * (v * bb) <= (u' - u) * (v' * cc)) by (apply Z.mul_le_mono_nonneg_l; zlia). zlia.
Qed.

Section Format.
Variables prec emax : Z.
Hypothesis Hprec : 1 < prec.
Hypothesis Hemax : prec < emax.
Local Notation emin := (emin prec emax).
Local Notation valid x := (valid_binary prec emax x = true).
Local Notation number x := (std_isnan x = false).
Local Notation finite x := (std_isfinite x = true).
Local Notation top := (top prec emax).
Local Notation key := (key prec emax).
Local Notation rounded := (rounded prec emax).
Local Notation one := (2 ^ (- emin)).
Local Notation near := (near prec).

Lemma near_trans j k a b c : near j a b -> near k b c -> near (j + k) a c.
Proof.
  unfold PropRounding.near. assert (P : 0 < 2 ^ prec) by (apply Z.pow_pos_nonneg; zlia). generalize dependent (2 ^ prec). intros p P. rewrite Nat2Z.inj_add, !Z.pow_add_r by zlia.
  assert (A1 : 0 < p ^ Z.of_nat j) by (apply Z.pow_pos_nonneg; zlia). assert (A2 : 0 < p ^ Z.of_nat k) by (apply Z.pow_pos_nonneg; zlia).
  assert (B1 : p ^ Z.of_nat j <= (p + 1) ^ Z.of_nat j) by (apply Z.pow_le_mono_l; zlia). assert (B2 : p ^ Z.of_nat k <= (p + 1) ^ Z.of_nat k) by (apply Z.pow_le_mono_l; zlia).
  apply near_arith; try assumption; zlia.
Qed.
Lemma near_scale j c a b : c <> 0 -> near j a b <-> near j (c * a) (c * b).
Proof. intros C. unfold PropRounding.near. rewrite <- Z.mul_sub_distr_l, !Z.abs_mul. assert (0 < Z.abs c) by zlia. generalize dependent (Z.abs c). generalize ((2 ^ prec) ^ Z.of_nat j), ((2 ^ prec + 1) ^ Z.of_nat j), (Z.abs (a - b)), (Z.abs b). intros; split; intros; nia. Qed.
Lemma near_1 a b : near 1 a b <-> 2 ^ prec * Z.abs (a - b) <= Z.abs b.
Proof. unfold PropRounding.near. change (Z.of_nat 1) with 1. rewrite !Z.pow_1_r. split; zlia. Qed.
Lemma near_zero a b : a = 0 -> b = 0 -> near 1 a b.
Proof. intros -> ->. apply near_1. cbn. zlia. Qed.
(** A result above the smallest normal number that did not overflow *)
Lemma rounded_near n d y : 0 < d -> rounded n d y -> finite y -> 2 ^ (prec - 1) < Z.abs (key y) -> near 1 (key y * d) n.
Proof.
  intros D R F L. apply near_1. pose proof R as (V & N & _). pose proof (key_finite prec emax Hprec Hemax y V F) as KF. assert (TP : 2 ^ (prec - 1) <= top) by (apply Z.pow_le_mono_r; unfold SpecFloat.emin; zlia). assert (PP : 0 < 2 ^ (prec - 1)) by (apply Z.pow_pos_nonneg; zlia).
  assert (UP : forall x, valid x -> number x -> n <= key x * d -> key y <= key x) by (intros; now apply (rounded_le prec emax Hprec Hemax n d)).
  assert (DN : forall x, valid x -> number x -> key x * d <= n -> key x <= key y) by (intros; now apply (rounded_ge prec emax Hprec Hemax n d)).
  destruct (number_of prec emax Hprec Hemax (2 ^ (prec - 1)) 0) as (p & VP & NP & KP); [rewrite Z.abs_eq by zlia; apply Z.pow_le_mono_r; zlia | zlia | rewrite Z.abs_eq by zlia; change (2 ^ 0) with 1; zlia|]. change (2 ^ 0) with 1 in KP. rewrite Z.mul_1_r in KP.
  destruct (number_of prec emax Hprec Hemax (- 2 ^ (prec - 1)) 0) as (p' & VP' & NP' & KP'); [rewrite Z.abs_opp, Z.abs_eq by zlia; apply Z.pow_le_mono_r; zlia | zlia | rewrite Z.abs_opp, Z.abs_eq by zlia; change (2 ^ 0) with 1; zlia|]. change (2 ^ 0) with 1 in KP'. rewrite Z.mul_1_r in KP'.
  pose proof (UP p VP NP) as U1. pose proof (DN p' VP' NP') as U2. pose proof (UP (S754_infinity true) eq_refl eq_refl) as U3. pose proof (DN (S754_infinity false) eq_refl eq_refl) as U4. rewrite KP in U1. rewrite KP' in U2. change (key (S754_infinity true)) with (- top) in U3. change (key (S754_infinity false)) with top in U4.
  apply (rounded_relative prec emax Hprec Hemax n d y D R).
  - clear UP DN R. generalize dependent (2 ^ (prec - 1)). generalize dependent top. generalize dependent (key y). intros. zlia.
  - clear UP DN R. generalize dependent (2 ^ (prec - 1)). generalize dependent top. generalize dependent (key y). intros. zlia.
Qed.

(** *** C88: NumberEquals compares the rounded difference *)
Theorem C88_rounded ce a b d r : valid a -> valid b -> valid d -> finite a -> finite b -> number d -> rounded (Z.abs (key a - key b)) 1 r -> FloatEquals prec emax ce a b d = (key r <=? key d).
Proof.
  intros VA VB VD FA FB ND R. pose proof (sub_rounded prec emax Hprec Hemax a b VA VB FA FB) as S. pose proof S as (VS & NS & _).
  assert (E : FloatEquals prec emax ce a b d = FloatEquals prec emax false a b d) by (destruct ce; [now apply C88_paths_agree | reflexivity]). rewrite E. cbn [FloatEquals].
  assert (NA : number (SFabs (SFsub prec emax a b))) by (destruct (SFsub prec emax a b); try discriminate; reflexivity). rewrite (leb_key prec emax Hprec Hemax) by (assumption || now apply valid_abs). rewrite NA, ND. cbn [orb negb andb]. f_equal.
  rewrite key_abs by assumption. destruct (Z.le_gt_cases 0 (key a - key b)) as [P|P].
  - rewrite (Z.abs_eq (key a - key b)) in R by zlia. rewrite (rounded_unique prec emax Hprec Hemax _ 1 _ 1 r _ Z.lt_0_1 Z.lt_0_1 R S eq_refl). apply Z.abs_eq.
    apply (rounded_ge prec emax Hprec Hemax _ 1 (S754_zero false) _ Z.lt_0_1 S eq_refl eq_refl). cbn [FloatSpec.key]. zlia.
  - rewrite (Z.abs_neq (key a - key b)) in R by zlia. rewrite (rounded_unique prec emax Hprec Hemax _ 1 _ 1 r _ Z.lt_0_1 Z.lt_0_1 R (rounded_opp prec emax _ _ _ S) eq_refl), key_opp. apply Z.abs_neq.
    apply (rounded_le prec emax Hprec Hemax _ 1 (S754_zero false) _ Z.lt_0_1 S eq_refl eq_refl). cbn [FloatSpec.key]. zlia.
Qed.

(** *** C90: Approach is monotone in the value *)
Lemma add_number a p : valid a -> valid p -> finite a -> number p -> number (SFadd prec emax a p).
Proof.
  intros VA VP FA NP. destruct (std_isfinite p) eqn:FP; [apply (add_rounded prec emax Hprec Hemax a p VA VP FA FP)|]. destruct a, p; try discriminate; reflexivity.
Qed.
Lemma add_mono a a' p p' : valid a -> valid a' -> valid p -> valid p' -> finite a -> finite a' -> number p -> number p' -> key a <= key a' -> key p <= key p' -> key (SFadd prec emax a p) <= key (SFadd prec emax a' p').
Proof.
  intros VA VA' VP VP' FA FA' NP NP' KA KP. pose proof (top_pos prec emax Hprec Hemax) as TP.
  assert (INF : forall a s, finite a -> SFadd prec emax a (S754_infinity s) = S754_infinity s) by (intros [] ?; try discriminate; reflexivity).
  destruct (std_isfinite p) eqn:FP.
  - destruct (std_isfinite p') eqn:FP'.
    + apply (rounded_order prec emax Hprec Hemax (key a + key p) (key a' + key p') 1); [zlia | now apply add_rounded | now apply add_rounded | zlia].
    + assert (EP : p' = S754_infinity false). { destruct p' as [s|[|]| |s m e]; try discriminate; [|reflexivity]. exfalso. pose proof (key_finite prec emax Hprec Hemax p VP FP). cbn [FloatSpec.key] in KP. zlia. }
      subst p'. rewrite INF by exact FA'. apply (key_range prec emax Hprec Hemax). now apply valid_add.
  - destruct p as [s|[|]| |s m e]; try discriminate.
    + rewrite INF by exact FA. apply (key_range prec emax Hprec Hemax). now apply valid_add.
    + assert (EP : p' = S754_infinity false). { pose proof (key_range prec emax Hprec Hemax p' VP'). destruct p' as [s|[|]| |s m e]; try discriminate; try reflexivity; exfalso; [cbn [FloatSpec.key] in KP; zlia | cbn [FloatSpec.key] in KP; zlia|]. pose proof (key_finite prec emax Hprec Hemax _ VP' eq_refl). change (key (S754_infinity false)) with top in KP. zlia. }
      subst p'. rewrite !INF by assumption. zlia.
Qed.
Lemma approach_up_key v o i : valid v -> valid o -> valid i -> finite v -> number o -> number i -> key v < key o -> key (FloatApproach prec emax v o i) = Z.min (key (SFadd prec emax v i)) (key o).
Proof.
  intros VV VO VI FV NO NI L. unfold FloatApproach. rewrite (ltb_key prec emax Hprec Hemax) by assumption. rewrite (finite_number v FV), NO. cbn [orb negb andb]. rewrite (proj2 (Z.ltb_lt _ _) L).
  unfold std_min. rewrite (ltb_key prec emax Hprec Hemax) by (assumption || now apply valid_add). rewrite add_number, NO by assumption. cbn [orb negb andb]. destruct (Z.ltb_spec (key o) (key (SFadd prec emax v i))); zlia.
Qed.
Lemma approach_down_key v o i : valid v -> valid o -> valid i -> finite v -> number o -> number i -> key o < key v -> key (FloatApproach prec emax v o i) = Z.max (key (SFadd prec emax v (SFopp i))) (key o).
Proof.
  intros VV VO VI FV NO NI L. assert (NI' : number (SFopp i)) by (destruct i; try discriminate; reflexivity). assert (VI' : valid (SFopp i)) by now apply valid_opp.
  unfold FloatApproach. rewrite !(ltb_key prec emax Hprec Hemax) by assumption. rewrite (finite_number v FV), NO. cbn [orb negb andb]. rewrite (proj2 (Z.ltb_lt _ _) L). replace (key v <? key o) with false by (symmetry; apply Z.ltb_ge; zlia).
  rewrite (sub_add prec emax) by assumption. unfold std_max. rewrite (ltb_key prec emax Hprec Hemax) by (assumption || now apply valid_add). rewrite add_number, NO by assumption. cbn [orb negb andb]. destruct (Z.ltb_spec (key (SFadd prec emax v (SFopp i))) (key o)); zlia.
Qed.
Theorem C90_monotone v v' o i : valid v -> valid v' -> valid o -> valid i -> finite v -> finite v' -> number o -> number i -> 0 <= key i -> key v <= key v' ->
  key (FloatApproach prec emax v o i) <= key (FloatApproach prec emax v' o i).
Proof.
  intros VV VV' VO VI FV FV' NO NI I0 L. assert (NI' : number (SFopp i)) by (destruct i; try discriminate; reflexivity). assert (VI' : valid (SFopp i)) by now apply valid_opp.
  assert (GE : key o <= key v' -> key o <= key (FloatApproach prec emax v' o i)).
  { intros G. apply Z.le_lteq in G. destruct G as [G|G]; [rewrite approach_down_key by assumption; apply Z.le_max_r|]. rewrite (C90_approach_there prec emax Hprec Hemax v' o i) by (assumption || (rewrite (proj2 (Z.eqb_eq _ _) (eq_sym G)); now rewrite !orb_true_r)). zlia. }
  destruct (Z.lt_trichotomy (key v) (key o)) as [A|[A|A]].
  - destruct (Z.lt_ge_cases (key v') (key o)) as [B|B]; [|apply Z.le_trans with (key o); [rewrite approach_up_key by assumption; apply Z.le_min_r | now apply GE]].
    rewrite !approach_up_key by assumption. apply Z.min_le_compat_r. now apply add_mono.
  - rewrite (C90_approach_there prec emax Hprec Hemax v o i) by (assumption || (rewrite (proj2 (Z.eqb_eq _ _) A); now rewrite !orb_true_r)). rewrite A. apply GE. now rewrite <- A.
  - rewrite !approach_down_key by (assumption || apply Z.lt_le_trans with (key v); assumption). apply Z.max_le_compat_r. now apply add_mono.
Qed.

(** *** C91: Lerp is monotone in the factor *)
Lemma mul_mono x x' c : valid x -> valid x' -> valid c -> finite x -> finite x' -> finite c -> 0 <= key c -> key x <= key x' -> key (SFmul prec emax x c) <= key (SFmul prec emax x' c).
Proof.
  intros VX VX' VC FX FX' FC C0 L. apply (rounded_order prec emax Hprec Hemax (key x * key c) (key x' * key c) one); [now apply one_pos | now apply mul_rounded | now apply mul_rounded | now apply Z.mul_le_mono_nonneg_r].
Qed.
Lemma mul_anti x x' c : valid x -> valid x' -> valid c -> finite x -> finite x' -> finite c -> key c <= 0 -> key x <= key x' -> key (SFmul prec emax x' c) <= key (SFmul prec emax x c).
Proof.
  intros VX VX' VC FX FX' FC C0 L. apply (rounded_order prec emax Hprec Hemax (key x' * key c) (key x * key c) one); [now apply one_pos | now apply mul_rounded | now apply mul_rounded | now apply Z.mul_le_mono_nonpos_r].
Qed.
Theorem C91_monotone a b t t' : valid a -> valid b -> valid t -> valid t' -> finite a -> finite b -> finite t -> finite t' -> finite (SFsub prec emax b a) -> key t <= key t' ->
  (key a <= key b -> key (FloatLerp prec emax a b t) <= key (FloatLerp prec emax a b t')) /\ (key b <= key a -> key (FloatLerp prec emax a b t') <= key (FloatLerp prec emax a b t)).
Proof.
  intros VA VB VT VT' FA FB FT FT' FS L. pose proof (sub_rounded prec emax Hprec Hemax b a VB VA FB FA) as S. pose proof S as (VS & _). unfold FloatLerp.
  pose proof (mul_rounded prec emax Hprec Hemax t (SFsub prec emax b a) VT VS FT FS) as (V1 & N1 & _). pose proof (mul_rounded prec emax Hprec Hemax t' (SFsub prec emax b a) VT' VS FT' FS) as (V2 & N2 & _).
  split; intros AB; (apply add_mono; try assumption; [apply Z.le_refl|]).
  - apply mul_mono; try assumption. apply (rounded_ge prec emax Hprec Hemax _ 1 (S754_zero false) _ Z.lt_0_1 S eq_refl eq_refl). cbn [FloatSpec.key]. zlia.
  - apply mul_anti; try assumption. apply (rounded_le prec emax Hprec Hemax _ 1 (S754_zero false) _ Z.lt_0_1 S eq_refl eq_refl). cbn [FloatSpec.key]. zlia.
Qed.
(** So for factors from 0 on the result is never before the start, and for factors up to 1 it does not pass what factor 1 gives. *)
Theorem C91_between a b t : valid a -> valid b -> valid t -> finite a -> finite b -> finite t -> finite (SFsub prec emax b a) -> 0 <= key t <= one -> key a <= key b ->
  key a <= key (FloatLerp prec emax a b t) <= key (FloatLerp prec emax a b (of_Z prec emax 1)).
Proof.
  intros VA VB VT FA FB FT FS B AB. assert (P1 : Z.abs 1 <= 2 ^ prec) by (change (2 ^ 0 <= 2 ^ prec); apply Z.pow_le_mono_r; zlia). destruct (of_Z_exact prec emax Hprec Hemax 1 P1) as (V1 & F1 & K1). split.
  - rewrite <- (C91_lerp_zero_partial prec emax a b VA FA FS) at 1. apply (C91_monotone a b (S754_zero false) t); try assumption; try reflexivity. apply B.
  - apply (C91_monotone a b t (of_Z prec emax 1)); try assumption. rewrite K1, Z.mul_1_l. apply B.
Qed.

(** *** C92: DegreeToRadian and RadianToDegree are monotone, and accurate up to two roundings *)
Lemma degrees_180 : 8 <= prec -> valid (of_Z prec emax 180) /\ finite (of_Z prec emax 180) /\ key (of_Z prec emax 180) = 180 * one.
Proof. intros H. apply of_Z_exact; try assumption. apply Z.le_trans with (2 ^ 8); [cbn; zlia | apply Z.pow_le_mono_r; zlia]. Qed.
Lemma div_positive a b : valid a -> valid b -> finite a -> finite b -> 0 <= key a -> 0 < key b -> valid (SFdiv prec emax a b) /\ 0 <= key (SFdiv prec emax a b) /\ rounded (key a * one) (key b) (SFdiv prec emax a b).
Proof.
  intros VA VB FA FB A B. pose proof (div_rounded prec emax Hprec Hemax a b VA VB FA FB ltac:(zlia)) as R. replace (key b <? 0) with false in R by (symmetry; apply Z.ltb_ge; zlia). cbn [signed] in R. rewrite Z.abs_eq in R by zlia.
  split; [apply R|]. split; [|exact R]. apply (rounded_ge prec emax Hprec Hemax _ _ (S754_zero false) _ B R eq_refl eq_refl). cbn [FloatSpec.key]. pose proof (one_pos prec emax Hprec Hemax). rewrite Z.mul_0_l. apply Z.mul_nonneg_nonneg; zlia.
Qed.
Theorem C92_monotone pi x x' : 8 <= prec -> valid pi -> finite pi -> 0 < key pi -> finite (SFdiv prec emax pi (of_Z prec emax 180)) -> finite (SFdiv prec emax (of_Z prec emax 180) pi) -> valid x -> valid x' -> finite x -> finite x' -> key x <= key x' ->
  key (DegreeToRadian prec emax pi x) <= key (DegreeToRadian prec emax pi x') /\ key (RadianToDegree prec emax pi x) <= key (RadianToDegree prec emax pi x').
Proof.
  intros H8 VP FP P0 F1 F2 VX VX' FX FX' L. destruct (degrees_180 H8) as (V8 & F8 & K8). pose proof (one_pos prec emax Hprec Hemax) as U.
  destruct (div_positive pi (of_Z prec emax 180) VP V8 FP F8) as (W1 & C1 & _); [zlia | rewrite K8; zlia|]. destruct (div_positive (of_Z prec emax 180) pi V8 VP F8 FP) as (W2 & C2 & _); [rewrite K8; zlia | exact P0|].
  split; now apply mul_mono.
Qed.
Theorem C92_degrees_accuracy pi x : 8 <= prec -> valid pi -> finite pi -> 0 < key pi -> valid x -> finite x -> let c := SFdiv prec emax pi (of_Z prec emax 180) in let r := DegreeToRadian prec emax pi x in
  finite c -> 2 ^ (prec - 1) < key c -> finite r -> 2 ^ (prec - 1) < Z.abs (key r) -> near 2 (180 * one * key r) (key pi * key x).
Proof.
  intros H8 VP FP P0 VX FX c r FC LC FR LR. destruct (degrees_180 H8) as (V8 & F8 & K8). pose proof (one_pos prec emax Hprec Hemax) as U.
  destruct (div_positive pi (of_Z prec emax 180) VP V8 FP F8) as (VC & _ & RC); [zlia | rewrite K8; zlia|]. fold c in VC, RC. rewrite K8 in RC.
  assert (RC' : rounded (key pi) 180 c) by (refine (rounded_scale prec emax _ _ _ _ _ _ _ _ RC); [zlia | zlia | ring]).
  assert (LC' : 2 ^ (prec - 1) < Z.abs (key c)) by (clear - LC; zlia). pose proof (rounded_near (key pi) 180 c eq_refl RC' FC LC') as N1. pose proof (mul_rounded prec emax Hprec Hemax x c VX VC FX FC) as RR. pose proof (rounded_near _ _ _ U RR FR LR) as N2. change (SFmul prec emax x c) with r in N2.
  apply (near_trans 1 1 _ (180 * (key x * key c))).
  - replace (180 * one * key r) with (180 * (key r * one)) by ring. now apply near_scale.
  - destruct (Z.eq_dec (key x) 0) as [X0|X0]; [apply near_zero; rewrite X0; ring|]. replace (180 * (key x * key c)) with (key x * (key c * 180)) by ring. replace (key pi * key x) with (key x * key pi) by ring. now apply near_scale.
Qed.
Theorem C92_radians_accuracy pi x : 8 <= prec -> valid pi -> finite pi -> 0 < key pi -> valid x -> finite x -> let c := SFdiv prec emax (of_Z prec emax 180) pi in let r := RadianToDegree prec emax pi x in
  finite c -> 2 ^ (prec - 1) < key c -> finite r -> 2 ^ (prec - 1) < Z.abs (key r) -> near 2 (key pi * key r) (180 * one * key x).
Proof.
  intros H8 VP FP P0 VX FX c r FC LC FR LR. destruct (degrees_180 H8) as (V8 & F8 & K8). pose proof (one_pos prec emax Hprec Hemax) as U.
  destruct (div_positive (of_Z prec emax 180) pi V8 VP F8 FP) as (VC & _ & RC); [rewrite K8; zlia | exact P0|]. fold c in VC, RC. rewrite K8 in RC.
  assert (LC' : 2 ^ (prec - 1) < Z.abs (key c)) by (clear - LC; zlia). pose proof (rounded_near _ _ _ P0 RC FC LC') as N1. pose proof (mul_rounded prec emax Hprec Hemax x c VX VC FX FC) as RR. pose proof (rounded_near _ _ _ U RR FR LR) as N2. change (SFmul prec emax x c) with r in N2.
  apply (near_scale 2 one); [zlia|]. apply (near_trans 1 1 _ (key pi * (key x * key c))).
  - replace (one * (key pi * key r)) with (key pi * (key r * one)) by ring. apply near_scale; [zlia | exact N2].
  - destruct (Z.eq_dec (key x) 0) as [X0|X0]; [apply near_zero; rewrite X0; ring|]. replace (key pi * (key x * key c)) with (key x * (key c * key pi)) by ring. replace (one * (180 * one * key x)) with (key x * (180 * one * one)) by ring. now apply near_scale.
Qed.
(** A round trip gives the angle back up to four roundings. *)
Theorem C92_round_trip_accuracy pi x : 8 <= prec -> valid pi -> finite pi -> 0 < key pi -> valid x -> finite x ->
  let c := SFdiv prec emax pi (of_Z prec emax 180) in let c' := SFdiv prec emax (of_Z prec emax 180) pi in let y := DegreeToRadian prec emax pi x in let z := RadianToDegree prec emax pi y in
  finite c -> 2 ^ (prec - 1) < key c -> finite c' -> 2 ^ (prec - 1) < key c' -> finite y -> 2 ^ (prec - 1) < Z.abs (key y) -> finite z -> 2 ^ (prec - 1) < Z.abs (key z) -> near 4 (key z) (key x).
Proof.
  intros H8 VP FP P0 VX FX c c' y z FC LC FC' LC' FY LY FZ LZ. pose proof (C92_degrees_accuracy pi x H8 VP FP P0 VX FX FC LC FY LY) as N1. fold y in N1.
  assert (VY : valid y). { destruct (degrees_180 H8) as (V8 & F8 & K8). pose proof (one_pos prec emax Hprec Hemax) as U. destruct (div_positive pi (of_Z prec emax 180) VP V8 FP F8) as (VC & _); [zlia | rewrite K8; zlia|]. apply (mul_rounded prec emax Hprec Hemax x _ VX VC FX FC). }
  pose proof (C92_radians_accuracy pi y H8 VP FP P0 VY FY FC' LC' FZ LZ) as N2. fold z in N2. apply (near_scale 4 (key pi)); [zlia|]. exact (near_trans 2 2 _ _ _ N2 N1).
Qed.

(** *** C93: Mod *)
(** At run time the remainder is exact. *)
Theorem C93_fmod_exact x y : valid x -> valid y -> finite x -> finite y -> key y <> 0 -> exists r, FloatMod prec emax false x y = Done r /\ valid r /\ finite r /\ key r = Z.rem (key x) (key y).
Proof. intros VX VY FX FY NZ. exists (std_fmod prec emax x y). split; [reflexivity|]. now apply fmod_key. Qed.
(** The two paths agree on integers below 2^prec (and 2^63), the divisor up to 2^prec, *)
Theorem C93_integers ce x y X Y : valid x -> valid y -> finite x -> finite y -> key x = X * one -> key y = Y * one -> Z.abs X < 2 ^ Z.min prec 63 -> 0 < Z.abs Y <= 2 ^ prec ->
  exists r, FloatMod prec emax ce x y = Done r /\ valid r /\ finite r /\ key r = Z.rem X Y * one.
Proof.
  intros VX VY FX FY KX KY BX BY. destruct ce; [now apply mod_integers|]. pose proof (one_pos prec emax Hprec Hemax) as U. assert (NZ : key y <> 0) by (rewrite KY; apply Z.neq_mul_0; zlia).
  destruct (C93_fmod_exact x y VX VY FX FY NZ) as (r & E & V & F & K). exists r. split; [exact E|]. split; [exact V|]. split; [exact F|]. rewrite K, KX, KY. apply Z.mul_rem_distr_r; zlia.
Qed.
(** and when the dividend is smaller than the divisor. *)
Theorem C93_smaller ce x y : valid x -> valid y -> finite x -> finite y -> Z.abs (key x) < Z.abs (key y) -> exists r, FloatMod prec emax ce x y = Done r /\ valid r /\ finite r /\ key r = key x.
Proof.
  intros VX VY FX FY L. destruct ce; [now apply mod_smaller|]. assert (NZ : key y <> 0) by (intros E; rewrite E in L; cbn in L; zlia).
  destruct (C93_fmod_exact x y VX VY FX FY NZ) as (r & E & V & F & K). exists r. split; [exact E|]. split; [exact V|]. split; [exact F|]. rewrite K. now apply Z.rem_small_iff.
Qed.

(** *** C106: MultiplyAdd *)
(** The fast version rounds the exact value x * y + z. *)
Theorem C106_fast_rounds_once x y z : valid x -> valid y -> valid z -> finite x -> finite y -> finite z -> rounded (key x * key y + key z * one) one (FloatMultiplyAdd prec emax true x y z).
Proof. intros. now apply fma_rounded. Qed.
(** The other one gives the same whenever the product is a number of the format. *)
Theorem C106_agree_partial x y z p : valid x -> valid y -> valid z -> finite x -> finite y -> finite z -> valid p -> finite p -> key p * one = key x * key y ->
  key (FloatMultiplyAdd prec emax false x y z) = key (FloatMultiplyAdd prec emax true x y z).
Proof.
  intros VX VY VZ FX FY FZ VP FP E. pose proof (one_pos prec emax Hprec Hemax) as U. pose proof (mul_rounded prec emax Hprec Hemax x y VX VY FX FY) as M. pose proof (rounded_exact prec emax _ _ p _ U M VP (finite_number p FP) E) as K.
  pose proof M as (VM & NM & _). assert (FM : finite (SFmul prec emax x y)) by (apply (finite_key prec emax Hprec Hemax); try assumption; rewrite K; apply (finite_key prec emax Hprec Hemax); [exact VP | now apply finite_number | exact FP]).
  pose proof (add_rounded prec emax Hprec Hemax _ z VM VZ FM FZ) as A. refine (rounded_unique prec emax Hprec Hemax _ _ _ _ _ _ Z.lt_0_1 U A (fma_rounded prec emax Hprec Hemax x y z VX VY VZ FX FY FZ) _). rewrite K, <- E. ring.
Qed.
(** On integers both are exact as long as product and result have at most prec bits. *)
Theorem C106_integers fast x y z X Y W : valid x -> valid y -> valid z -> finite x -> finite y -> finite z -> key x = X * one -> key y = Y * one -> key z = W * one -> Z.abs (X * Y) <= 2 ^ prec -> Z.abs (X * Y + W) <= 2 ^ prec ->
  key (FloatMultiplyAdd prec emax fast x y z) = (X * Y + W) * one.
Proof.
  intros VX VY VZ FX FY FZ KX KY KZ B1 B2. pose proof (one_pos prec emax Hprec Hemax) as U.
  assert (T : key (FloatMultiplyAdd prec emax true x y z) = (X * Y + W) * one) by (eapply integer_exact; [exact Hprec | exact Hemax | exact U | now apply C106_fast_rounds_once | exact B2 | rewrite KX, KY, KZ; ring]).
  destruct fast; [exact T|]. rewrite <- T. destruct (integer_exact prec emax Hprec Hemax (X * Y) (key x * key y) one (SFmul prec emax x y) U) as (VP & FP & KP); [now apply mul_rounded | exact B1 | rewrite KX, KY; ring|].
  apply (C106_agree_partial x y z (SFmul prec emax x y)); try assumption. rewrite KP, KX, KY. ring.
Qed.
(** Both are monotone in the addend. *)
Theorem C106_monotone fast x y z z' : valid x -> valid y -> valid z -> valid z' -> finite x -> finite y -> finite z -> finite z' -> finite (SFmul prec emax x y) -> key z <= key z' ->
  key (FloatMultiplyAdd prec emax fast x y z) <= key (FloatMultiplyAdd prec emax fast x y z').
Proof.
  intros VX VY VZ VZ' FX FY FZ FZ' FM L. pose proof (one_pos prec emax Hprec Hemax) as U. destruct fast.
  - refine (rounded_order prec emax Hprec Hemax _ _ one _ _ U (C106_fast_rounds_once x y z VX VY VZ FX FY FZ) (C106_fast_rounds_once x y z' VX VY VZ' FX FY FZ') _). apply Z.add_le_mono_l, Z.mul_le_mono_nonneg_r; zlia.
  - pose proof (mul_rounded prec emax Hprec Hemax x y VX VY FX FY) as (VM & _). apply add_mono; try assumption; try now apply finite_number. apply Z.le_refl.
Qed.
(** Without cancellation the two roundings are all that separates it from the exact value. *)
Theorem C106_same_sign x y z : valid x -> valid y -> valid z -> finite x -> finite y -> finite z -> finite (SFmul prec emax x y) -> 2 ^ (prec - 1) < Z.abs (key (SFmul prec emax x y)) -> 0 <= key x * key y * key z ->
  finite (FloatMultiplyAdd prec emax false x y z) -> 2 ^ (prec - 1) < Z.abs (key (FloatMultiplyAdd prec emax false x y z)) -> near 2 (key (FloatMultiplyAdd prec emax false x y z) * one) (key x * key y + key z * one).
Proof.
  intros VX VY VZ FX FY FZ FM LM SG FR LR. pose proof (one_pos prec emax Hprec Hemax) as U. pose proof (mul_rounded prec emax Hprec Hemax x y VX VY FX FY) as M. pose proof M as (VM & _). pose proof (rounded_near _ _ _ U M FM LM) as N1.
  pose proof (rounded_near _ _ _ Z.lt_0_1 (add_rounded prec emax Hprec Hemax _ z VM VZ FM FZ) FR LR) as N2. change (SFadd prec emax (SFmul prec emax x y) z) with (FloatMultiplyAdd prec emax false x y z) in N2. rewrite Z.mul_1_r in N2.
  apply (near_scale 1 one) in N2; [|zlia]. replace (key (FloatMultiplyAdd prec emax false x y z) * one) with (one * key (FloatMultiplyAdd prec emax false x y z)) by ring. apply (near_trans 1 1 _ _ _ N2). apply near_1. apply near_1 in N1.
  replace (one * (key (SFmul prec emax x y) + key z) - (key x * key y + key z * one)) with (key (SFmul prec emax x y) * one - key x * key y) by ring. apply Z.le_trans with (1 := N1).
  clear - U SG. generalize dependent (key x * key y). generalize dependent (key z). generalize dependent one. intros u U k p S. assert (p * (k * u) >= 0) by nia. assert (0 <= p * (k * u)) by zlia. generalize dependent (k * u). intros v _ S2. destruct (Z.le_gt_cases 0 p); [destruct (Z.eq_dec p 0); [zlia|]; assert (0 <= v) by nia; zlia | assert (v <= 0) by nia; zlia].
Qed.
(** With a zero, an infinity or a NaN among the factors, or a zero addend, the versions are the same. *)
Theorem C106_special x y z : (forall s m e s' m' e', x = S754_finite s m e -> y <> S754_finite s' m' e') \/ (exists s, z = S754_zero s /\ key (SFmul prec emax x y) <> 0) -> FloatMultiplyAdd prec emax true x y z = FloatMultiplyAdd prec emax false x y z.
Proof.
  intros [H|(s & -> & NZ)].
  - destruct x as [s|s| |s m e], y as [t|t| |t m' e']; try reflexivity. exfalso. now apply (H s m e t m' e').
  - destruct x as [sx|sx| |sx mx ex], y as [t|t| |t m' e']; try reflexivity. cbn [FloatMultiplyAdd std_fma]. destruct (SFmul prec emax (S754_finite sx mx ex) (S754_finite t m' e')) eqn:E; [exfalso; now apply NZ | reflexivity | reflexivity | reflexivity].
Qed.
End Format.

(** In float: (1 + 2^-23)^2 - (1 + 2^-22) is 2^-46 when rounded once, 0 when the product is rounded. *)
Definition eps1 : spec_float := f32 false 8388609 (-23).
Theorem C106_agree_refuted : FloatMultiplyAdd 24 128 true eps1 eps1 (f32 true 4194305 (-22)) = f32 false 1 (-46) /\ FloatMultiplyAdd 24 128 false eps1 eps1 (f32 true 4194305 (-22)) = fz 0.
Proof. split; vm_compute; reflexivity. Qed.
(** A product that overflows: infinity instead of a finite result, NaN instead of an infinity. *)
Theorem C106_overflow_refuted : let big := f32 false 1 127 in
  FloatMultiplyAdd 24 128 true big (fz 2) (SFopp big) = big /\ FloatMultiplyAdd 24 128 false big (fz 2) (SFopp big) = inf /\
  FloatMultiplyAdd 24 128 true big (fz 2) (S754_infinity true) = S754_infinity true /\ FloatMultiplyAdd 24 128 false big (fz 2) (S754_infinity true) = S754_nan.
Proof. repeat split; vm_compute; reflexivity. Qed.
Example C106_example : FloatMultiplyAdd 24 128 true (fz 3) (fz 5) (fz 7) = fz 22 /\ FloatMultiplyAdd 24 128 false (fz 3) (fz 5) (fz 7) = fz 22.
Proof. split; vm_compute; reflexivity. Qed.
(** The conditions of C92 hold for the constants: monotone, and accurate at one degree. *)
Example C92_conditions : let c := SFdiv 24 128 pi32 (fz 180) in let c' := SFdiv 24 128 (fz 180) pi32 in let y := DegreeToRadian 24 128 pi32 (fz 1) in
  0 < key 24 128 pi32 /\ std_isfinite c = true /\ std_isfinite c' = true /\ 2 ^ 23 < key 24 128 c /\ 2 ^ 23 < key 24 128 c' /\ std_isfinite y = true /\ 2 ^ 23 < Z.abs (key 24 128 y) /\ 2 ^ 23 < Z.abs (key 24 128 (RadianToDegree 24 128 pi32 y)).
Proof. repeat split; vm_compute; reflexivity. Qed.
Example C93_integers_example : exists r, FloatMod 24 128 true (fz (-16777215)) (fz 1000) = Done r /\ SFeqb r (fz (-215)) = true.
Proof. exists (fz (-215)). split; vm_compute; reflexivity. Qed.
Print Assumptions C88_rounded.
Print Assumptions C90_monotone.
Print Assumptions C91_monotone.
Print Assumptions C91_between.
Print Assumptions C92_monotone.
Print Assumptions C92_degrees_accuracy.
Print Assumptions C92_radians_accuracy.
Print Assumptions C92_round_trip_accuracy.
Print Assumptions C93_fmod_exact.
Print Assumptions C93_integers.
Print Assumptions C93_smaller.
Print Assumptions C106_fast_rounds_once.
Print Assumptions C106_agree_partial.
Print Assumptions C106_integers.
Print Assumptions C106_monotone.
Print Assumptions C106_same_sign.
Print Assumptions C106_special.
Print Assumptions C106_agree_refuted.
Print Assumptions C106_overflow_refuted.
