(** Property C104: the constants. *)
From Coq Require Import QArith Lqa.
From Verif Require Import Base CInt FloatSpec FloatModel FloatProofs ConstantsModel.
Open Scope Z_scope.

(** ** Real numbers as cuts *)
(** A real number is given by the rational numbers below and above it. *)
Record real := mkReal { below : Q -> Prop; above : Q -> Prop }.
Definition sqrt_of (k : Q) : real := mkReal (fun q => (q < 0 \/ q * q < k)%Q) (fun q => (0 < q /\ k < q * q)%Q).
(** arctan (1/d) as a series, its partial sums, and Machin's formula pi = 16 arctan(1/5) - 4 arctan(1/239) *)
Definition arctan_term (d : positive) (n : nat) : Q := 1 # ((2 * Pos.of_succ_nat n - 1) * d ^ (2 * Pos.of_succ_nat n - 1)).
Fixpoint arctan_sum (d : positive) (n : nat) : Q :=
  match n with O => 0 | S k => arctan_sum d k + (if Nat.even k then arctan_term d k else - arctan_term d k) end%Q.
Definition pi_sum (n : nat) : Q := (16 * arctan_sum 5 n - 4 * arctan_sum 239 n)%Q.
(** a rational is below the limit if the sums eventually exceed it by some fixed amount *)
Definition pi_times (c : Q) : real :=
  mkReal (fun q => exists eps N, (0 < eps)%Q /\ forall n, (N <= n)%nat -> (q + eps < c * pi_sum n)%Q)
         (fun q => exists eps N, (0 < eps)%Q /\ forall n, (N <= n)%nat -> (c * pi_sum n + eps < q)%Q).

(** [x] is the number of the format nearest to [r]: for any other [y], the middle of [x] and [y] is on the other side of [r]. *)
Definition middle (prec emax : Z) (x y : spec_float) : Q := (key prec emax x + key prec emax y) # Z.to_pos (2 ^ (1 - emin prec emax)).
Definition nearest (prec emax : Z) (r : real) (x : spec_float) : Prop :=
  valid_binary prec emax x = true /\ std_isfinite x = true /\
  forall y, valid_binary prec emax y = true -> std_isnan y = false ->
    (key prec emax x < key prec emax y -> above r (middle prec emax x y)) /\ (key prec emax y < key prec emax x -> below r (middle prec emax x y)).

(** A real between the middles of [x] and its neighbours is nearest to it. *)
Definition monotone (r : real) : Prop := (forall p q, below r q -> (p <= q)%Q -> below r p) /\ (forall p q, above r p -> (p <= q)%Q -> above r q).
Lemma reduced n e f : f <= e -> e <= 0 -> (n * 2 ^ (e - f) # Z.to_pos (2 ^ (1 - f)) == n # Z.to_pos (2 ^ (1 - e)))%Q.
Proof.
  intros L E. unfold Qeq. cbn [Qnum Qden]. rewrite !Z2Pos.id by (apply Z.pow_pos_nonneg; lia). rewrite <- Z.mul_assoc, <- Z.pow_add_r by lia. f_equal. f_equal. lia.
Qed.
Lemma nearest_check prec emax r s m e : 1 < prec -> prec < emax -> monotone r -> s = false -> valid_binary prec emax (S754_finite s m e) = true -> 2 ^ (prec - 1) < Zpos m -> e <= 0 ->
  below r (2 * Zpos m - 1 # Z.to_pos (2 ^ (1 - e))) -> above r (2 * Zpos m + 1 # Z.to_pos (2 ^ (1 - e))) ->
  nearest prec emax r (S754_finite s m e).
Proof.
  intros HP HE (MB & MA) -> V HM E0 B0 A0.
  assert (E1 : emin prec emax <= e) by (destruct (valid_finite prec emax HP HE _ _ _ V) as (C & _ & _); destruct C; lia).
  assert (B : below r ((2 * Zpos m - 1) * 2 ^ (e - emin prec emax) # Z.to_pos (2 ^ (1 - emin prec emax)))) by (apply (MB _ _ B0); rewrite reduced by assumption; apply Qle_refl).
  assert (A : above r ((2 * Zpos m + 1) * 2 ^ (e - emin prec emax) # Z.to_pos (2 ^ (1 - emin prec emax)))) by (apply (MA _ _ A0); rewrite reduced by assumption; apply Qle_refl).
  clear E0 B0 A0 E1. split; [exact V|]. split; [reflexivity|]. intros y VY NY.
  destruct (valid_finite prec emax HP HE _ _ _ V) as (C & _ & K). set (u := 2 ^ (e - emin prec emax)) in *. assert (U : 0 < u) by (apply Z.pow_pos_nonneg; [lia | destruct C; lia]).
  assert (KX : key prec emax (S754_finite false m e) = Zpos m * u) by reflexivity. unfold middle. rewrite KX.
  assert (LE : forall a b p, a <= b -> (a # p <= b # p)%Q) by (intros a b p L; unfold Qle; cbn; nia).
  assert (Y : key prec emax y <= (Zpos m - 1) * u \/ key prec emax y = Zpos m * u \/ (Zpos m + 1) * u <= key prec emax y).
  { destruct (magnitude prec emax HP HE y VY NY) as [->|(s & my & ey & CY & -> & R)]; [left; nia|]. destruct s; cbn [signed]; [left; nia|].
    destruct (Z.lt_trichotomy e ey) as [L|[->|L]].
    - right; right. pose proof (canon_lt prec emax HP _ _ _ _ C CY L) as X. fold u in X. assert (D : 2 ^ (ey - emin prec emax) = u * 2 ^ (ey - e)) by (unfold u; rewrite <- Z.pow_add_r by (destruct C; lia); f_equal; lia).
      rewrite D in X |- *. set (w := 2 ^ (ey - e)) in *. assert (Zpos m < my * w) by nia. nia.
    - fold u in R |- *. destruct (Z.lt_trichotomy my (Zpos m)) as [M|[->|M]]; [left | right; left | right; right]; nia.
    - left. pose proof C as (C1 & _ & C3). assert (emin prec emax < e) as EE by (destruct CY; lia).
      assert (CP : canon prec emax (Zpos m - 1) e) by (split; [lia|]; split; [destruct C as (_ & ? & _); pose proof (Z.pow_pos_nonneg 2 (prec - 1)); lia | lia]).
      pose proof (canon_lt prec emax HP _ _ _ _ CY CP L). fold u in H. lia. }
  split; intros L.
  - apply (MA _ _ A). apply LE. nia.
  - apply (MB _ _ B). apply LE. nia.
Qed.

(** A number of the same exponent, with the real on its side of the middle, is nearer. *)
Lemma not_nearest prec emax r m m' e : monotone r -> (forall q, (0 < q)%Q -> above r q -> below r q -> False) -> valid_binary prec emax (S754_finite false m' e) = true -> emin prec emax <= e -> e <= 0 ->
  (Zpos m < Zpos m' /\ below r (Zpos (m + m') # Z.to_pos (2 ^ (1 - e)))) \/ (Zpos m' < Zpos m /\ above r (Zpos (m + m') # Z.to_pos (2 ^ (1 - e)))) -> ~ nearest prec emax r (S754_finite false m e).
Proof.
  intros (MB & MA) NB V E1 E0 H (_ & _ & N). specialize (N _ V eq_refl). unfold middle in N. cbn [key] in N. rewrite <- Z.mul_add_distr_r in N. rewrite Pos2Z.inj_add in H.
  assert (U : 0 < 2 ^ (e - emin prec emax)) by (apply Z.pow_pos_nonneg; lia).
  assert (R := reduced (Zpos m + Zpos m') e (emin prec emax) E1 E0). assert (P : (0 < Zpos m + Zpos m' # Z.to_pos (2 ^ (1 - e)))%Q) by reflexivity.
  destruct N as (N1 & N2). destruct H as [(L & H)|(L & H)].
  - refine (NB _ P _ H). refine (MA _ _ (N1 _) _); [apply Z.mul_lt_mono_pos_r; assumption | rewrite R; apply Qle_refl].
  - refine (NB _ P H _). refine (MB _ _ (N2 _) _); [apply Z.mul_lt_mono_pos_r; assumption | rewrite R; apply Qle_refl].
Qed.

Lemma sqrt_monotone k : monotone (sqrt_of k).
Proof.
  split; cbn [sqrt_of below above].
  - intros p q [H|H] L; [left; eapply Qle_lt_trans; eassumption|]. destruct (Qlt_le_dec p 0) as [?|P]; [now left|right].
    eapply Qle_lt_trans; [|exact H]. apply Qmult_le_compat_nonneg; split; assumption.
  - intros p q (P & H) L. split; [eapply Qlt_le_trans; eassumption|]. eapply Qlt_le_trans; [exact H|]. apply Qmult_le_compat_nonneg; split; trivial; now apply Qlt_le_weak.
Qed.
Lemma pi_monotone c : monotone (pi_times c).
Proof.
  split; cbn [pi_times below above]; intros p q (eps & N & E & H) L; exists eps, N; (split; [exact E|]); intros n Hn; specialize (H n Hn).
  - eapply Qle_lt_trans; [|exact H]. now apply Qplus_le_l.
  - eapply Qlt_le_trans; [exact H | exact L].
Qed.

(** *** The series *)
Lemma term_pos d n : (0 < arctan_term d n)%Q.
Proof. reflexivity. Qed.
Lemma term_decreasing d n : (arctan_term d (S n) <= arctan_term d n)%Q.
Proof.
  unfold arctan_term, Qle. cbn [Qnum Qden]. rewrite !Z.mul_1_l. rewrite !Pos2Z.inj_mul, !Pos2Z.inj_pow.
  apply Z.mul_le_mono_nonneg; [lia | lia | apply Z.pow_nonneg; lia | apply Z.pow_le_mono_r; lia].
Qed.
Fixpoint tail (d : positive) (n k : nat) : Q := match k with O => 0 | S k => arctan_term d n - tail d (S n) k end%Q.
Lemma tail_bounds d k : forall n, (0 <= tail d n k <= arctan_term d n)%Q.
Proof.
  induction k as [|k IH]; intros n; cbn [tail]; [pose proof (term_pos d n); lra|]. specialize (IH (S n)). pose proof (term_decreasing d n). lra.
Qed.
Lemma sum_tail d k : forall n, (arctan_sum d (n + k) == arctan_sum d n + (if Nat.even n then tail d n k else - tail d n k))%Q.
Proof.
  induction k as [|k IH]; intros n; cbn [tail].
  - rewrite Nat.add_0_r. destruct (Nat.even n); lra.
  - replace (n + S k)%nat with (S n + k)%nat by lia. rewrite IH. cbn [arctan_sum]. rewrite Nat.even_succ, <- Nat.negb_even. destruct (Nat.even n); cbn [negb]; lra.
Qed.
Lemma sum_bounds d N n : (N <= n)%nat -> (arctan_sum d N - arctan_term d N <= arctan_sum d n <= arctan_sum d N + arctan_term d N)%Q.
Proof.
  intros L. replace n with (N + (n - N))%nat by lia. pose proof (sum_tail d (n - N) N) as E. pose proof (tail_bounds d (n - N) N). destruct (Nat.even N); lra.
Qed.
(** Two decimal bounds, from 15 terms of the first series and 5 of the second. *)
Definition pi_low : Q := 3141592653589793238462628 # 10 ^ 24.
Definition pi_high : Q := 3141592653589793238462872 # 10 ^ 24.
Lemma low_5 : Qle_bool (197395559849880758370049 # 10 ^ 24) (arctan_sum 5 15 - arctan_term 5 15) = true.
Proof. vm_compute. reflexivity. Qed.
Lemma high_5 : Qle_bool (arctan_sum 5 15 + arctan_term 5 15) (197395559849880758370064 # 10 ^ 24) = true.
Proof. vm_compute. reflexivity. Qed.
Lemma low_239 : Qle_bool (4184076002074723864538 # 10 ^ 24) (arctan_sum 239 5 - arctan_term 239 5) = true.
Proof. vm_compute. reflexivity. Qed.
Lemma high_239 : Qle_bool (arctan_sum 239 5 + arctan_term 239 5) (4184076002074723864539 # 10 ^ 24) = true.
Proof. vm_compute. reflexivity. Qed.
Lemma combine a b p q r s t u : (p <= a -> a <= q -> r <= b -> b <= s -> t == 16 * p - 4 * s -> u == 16 * q - 4 * r -> t <= 16 * a - 4 * b /\ 16 * a - 4 * b <= u)%Q.
Proof. intros. split; lra. Qed.
Lemma pi_bounds n : (15 <= n)%nat -> (pi_low <= pi_sum n /\ pi_sum n <= pi_high)%Q.
Proof.
  intros L. destruct (sum_bounds 5 15 n L) as (A & B). destruct (sum_bounds 239 5 n) as (C & D); [lia|].
  pose proof (proj1 (Qle_bool_iff _ _) low_5) as L5. pose proof (proj1 (Qle_bool_iff _ _) high_5) as H5. pose proof (proj1 (Qle_bool_iff _ _) low_239) as L239. pose proof (proj1 (Qle_bool_iff _ _) high_239) as H239.
  exact (combine _ _ _ _ _ _ pi_low pi_high (Qle_trans _ _ _ L5 A) (Qle_trans _ _ _ B H5) (Qle_trans _ _ _ L239 C) (Qle_trans _ _ _ D H239) eq_refl eq_refl).
Qed.
(** The checks, by computation with these bounds. *)
Lemma pi_below c q : (0 < c)%Q -> Qle_bool (q + (1 # 10 ^ 30)) (c * pi_low) = true -> below (pi_times c) q.
Proof.
  intros C H. apply Qle_bool_iff in H. exists (1 # 10 ^ 31)%Q, 15%nat. split; [reflexivity|]. intros n L. eapply Qlt_le_trans with (q + (1 # 10 ^ 30))%Q.
  - apply Qplus_lt_r. reflexivity.
  - eapply Qle_trans; [exact H|]. rewrite Qmult_le_l by exact C. exact (proj1 (pi_bounds n L)).
Qed.
Lemma pi_above c q : (0 < c)%Q -> Qle_bool (c * pi_high + (1 # 10 ^ 30)) q = true -> above (pi_times c) q.
Proof.
  intros C H. apply Qle_bool_iff in H. exists (1 # 10 ^ 31)%Q, 15%nat. split; [reflexivity|]. intros n L. eapply Qlt_le_trans; [|exact H].
  eapply Qle_lt_trans with (c * pi_high + (1 # 10 ^ 31))%Q; [apply Qplus_le_l; rewrite Qmult_le_l by exact C; exact (proj2 (pi_bounds n L)) | apply Qplus_lt_r; reflexivity].
Qed.
(** A number nearest to two reals apart is impossible; used for the refutations. *)
Lemma pi_not_both c q : (0 < q)%Q -> above (pi_times c) q -> below (pi_times c) q -> False.
Proof.
  intros _ (e1 & n1 & P1 & A) (e2 & n2 & P2 & B). specialize (A (Nat.max n1 n2) (Nat.le_max_l _ _)). specialize (B (Nat.max n1 n2) (Nat.le_max_r _ _)). lra.
Qed.
Lemma sqrt_not_both k q : (0 < q)%Q -> above (sqrt_of k) q -> below (sqrt_of k) q -> False.
Proof. intros P (_ & A) [B|B]; lra. Qed.

(** ** C104 *)
Definition pi_real := pi_times 1.
Definition half_pi_real := pi_times (1 # 2).
Definition tau_real := pi_times 2.
(** In float and double, every constant is the number nearest to the real one. *)
Ltac near :=
  match goal with |- nearest ?p ?e ?r ?x => let v := eval vm_compute in x in replace x with v by (vm_compute; reflexivity) end;
  apply nearest_check; [reflexivity | reflexivity | (apply sqrt_monotone || apply pi_monotone) | reflexivity | reflexivity | reflexivity | discriminate | |].
Ltac root := near; [right; reflexivity | split; reflexivity].
Ltac circle := near; [apply pi_below; [reflexivity | vm_compute; reflexivity] | apply pi_above; [reflexivity | vm_compute; reflexivity]].
Theorem C104_float : nearest 24 128 pi_real (Pi 24 128) /\ nearest 24 128 half_pi_real (HalfPi 24 128) /\ nearest 24 128 tau_real (Tau 24 128) /\
  nearest 24 128 (sqrt_of 2) (Sqrt2 24 128) /\ nearest 24 128 (sqrt_of 3) (Sqrt3 24 128) /\ nearest 24 128 (sqrt_of 5) (Sqrt5 24 128).
Proof. split; [circle|]. split; [circle|]. split; [circle|]. split; [root|]. split; root. Qed.
Print Assumptions C104_float.
Theorem C104_double : nearest 53 1024 pi_real (Pi 53 1024) /\ nearest 53 1024 half_pi_real (HalfPi 53 1024) /\ nearest 53 1024 tau_real (Tau 53 1024) /\
  nearest 53 1024 (sqrt_of 2) (Sqrt2 53 1024) /\ nearest 53 1024 (sqrt_of 3) (Sqrt3 53 1024) /\ nearest 53 1024 (sqrt_of 5) (Sqrt5 53 1024).
Proof. split; [circle|]. split; [circle|]. split; [circle|]. split; [root|]. split; root. Qed.
Print Assumptions C104_double.
(** Tau is twice Pi and Pi twice HalfPi, exactly, in all three types. *)
Theorem C104_multiples : forall prec emax, In (prec, emax) [(24, 128); (53, 1024); (64, 16384)] ->
  Tau prec emax = SFmul prec emax (of_Z prec emax 2) (Pi prec emax) /\ Pi prec emax = SFmul prec emax (of_Z prec emax 2) (HalfPi prec emax).
Proof. intros prec emax [E|[E|[E|[]]]]; injection E as <- <-; split; vm_compute; reflexivity. Qed.
Print Assumptions C104_multiples.
(** In long double (x87) none is the nearest: the literals are rounded to double first. *)
Ltac far y :=
  match goal with |- ~ nearest ?p ?e ?r ?x => let v := eval vm_compute in x in replace x with v by (vm_compute; reflexivity) end;
  match y with S754_finite false ?k _ => apply not_nearest with (m' := k) end; [(apply sqrt_monotone || apply pi_monotone) | (apply sqrt_not_both || apply pi_not_both) | reflexivity | discriminate | discriminate |];
  first [left; split; [reflexivity|]; (apply pi_below; [reflexivity | vm_compute; reflexivity]) | right; split; [reflexivity|]; (apply pi_above; [reflexivity | vm_compute; reflexivity])
       | left; split; [reflexivity|]; right; vm_compute; reflexivity | right; split; [reflexivity|]; split; vm_compute; reflexivity].
Theorem C104_long_double_refuted :
  ~ nearest 64 16384 pi_real (Pi 64 16384) /\ ~ nearest 64 16384 half_pi_real (HalfPi 64 16384) /\ ~ nearest 64 16384 tau_real (Tau 64 16384) /\
  ~ nearest 64 16384 (sqrt_of 2) (Sqrt2 64 16384) /\ ~ nearest 64 16384 (sqrt_of 3) (Sqrt3 64 16384) /\ ~ nearest 64 16384 (sqrt_of 5) (Sqrt5 64 16384).
Proof.
  pose (lit n := of_ratio 64 16384 n (10 ^ 31)).
  split; [let y := eval vm_compute in (lit 31415926535897932384626433832795%positive) in far y|].
  split; [let y := eval vm_compute in (lit 15707963267948966192313216916398%positive) in far y|].
  split; [let y := eval vm_compute in (lit 62831853071795864769252867665590%positive) in far y|].
  split; [let y := eval vm_compute in (lit 14142135623730950488016887242097%positive) in far y|].
  split; [let y := eval vm_compute in (lit 17320508075688772935274463415059%positive) in far y|].
  let y := eval vm_compute in (lit 22360679774997896964091736687313%positive) in far y.
Qed.
Print Assumptions C104_long_double_refuted.

Section Format.
Variables prec emax : Z.
Hypothesis Hprec : 1 < prec.
Hypothesis Hemax : prec < emax.
Local Notation valid x := (valid_binary prec emax x = true).
(** MaxValue is the largest finite number, Infinity is beyond it, NaN compares with nothing; for every format. *)
Theorem C104_limits : valid (FloatMaxValue prec emax) /\ IsFinite false (FloatMaxValue prec emax) = true /\
  (forall x, valid x -> IsFinite false x = true -> SFleb x (FloatMaxValue prec emax) = true /\ SFleb (SFopp (FloatMaxValue prec emax)) x = true) /\
  (forall x, valid x -> IsFinite false x = true -> SFltb x FloatInfinity = true /\ SFltb (SFopp FloatInfinity) x = true) /\
  (forall x, SFeqb x FloatNaN = false /\ SFltb x FloatNaN = false /\ SFltb FloatNaN x = false).
Proof.
  assert (P : 0 < 2 ^ prec - 1) by (pose proof (Z.pow_gt_1 2 prec); lia).
  assert (SE : emin prec emax <= emax - prec) by (unfold SpecFloat.emin; lia).
  assert (H2 : 2 ^ prec = 2 * 2 ^ (prec - 1)) by (rewrite <- Z.pow_succ_r by lia; f_equal; lia). assert (0 < 2 ^ (prec - 1)) by (apply Z.pow_pos_nonneg; lia).
  assert (V : valid (FloatMaxValue prec emax)).
  { unfold FloatMaxValue. cbn [valid_binary]. apply (bounded_canon prec emax Hprec Hemax). rewrite Z2Pos.id by exact P. split; [|lia]. split; [exact SE|]. split; [lia|]. intros _. lia. }
  assert (K : key prec emax (FloatMaxValue prec emax) = top prec emax - 2 ^ (emax - prec - emin prec emax)).
  { unfold FloatMaxValue. cbn [key]. rewrite Z2Pos.id by exact P. unfold top. replace (emax - emin prec emax) with (prec + (emax - prec - emin prec emax)) by lia. rewrite Z.pow_add_r by lia. lia. }
  assert (M : forall x, valid x -> std_isfinite x = true -> Z.abs (key prec emax x) <= key prec emax (FloatMaxValue prec emax)).
  { intros x VX FX. rewrite K. destruct (magnitude prec emax Hprec Hemax x VX) as [->|(s & m & e & C & E & R)]; [now destruct x|cbn [Z.abs]|].
    - assert (2 ^ (emax - prec - emin prec emax) <= top prec emax) by (unfold top; apply Z.pow_le_mono_r; lia). lia.
    - assert (LT : m * 2 ^ (e - emin prec emax) < top prec emax).
      { pose proof (key_finite prec emax Hprec Hemax x VX FX) as KF. rewrite E in KF. unfold signed in KF. destruct s; lia. }
      rewrite E. replace (Z.abs (signed s (m * 2 ^ (e - emin prec emax)))) with (m * 2 ^ (e - emin prec emax)) by (unfold signed; destruct s; lia).
      pose proof LT as LE. rewrite (canon_top prec emax Hprec Hemax _ _ C) in LE. pose proof C as (C1 & (_ & C2) & _).
      rewrite <- K. unfold FloatMaxValue. cbn [key]. rewrite Z2Pos.id by exact P.
      apply Z.mul_le_mono_nonneg; [lia | lia | apply Z.pow_nonneg; lia | apply Z.pow_le_mono_r; lia]. }
  split; [exact V|]. split; [reflexivity|]. split; [|split].
  - intros x VX FX. cbn in FX. specialize (M x VX FX). rewrite !(leb_key prec emax Hprec Hemax) by (trivial; now apply valid_opp).
    change (std_isnan (FloatMaxValue prec emax)) with false. change (std_isnan (SFopp (FloatMaxValue prec emax))) with false. rewrite key_opp.
    replace (std_isnan x) with false by (now destruct x). cbn [orb negb andb]. rewrite !Z.leb_le. lia.
  - intros x VX FX. cbn in FX. pose proof (key_finite prec emax Hprec Hemax x VX FX). rewrite !(ltb_key prec emax Hprec Hemax) by trivial.
    replace (std_isnan x) with false by (now destruct x). cbn [orb negb andb FloatInfinity SFopp std_isnan key]. lia.
  - intros x. now destruct x as [s|s| |s m e]; try destruct s.
Qed.
(** Whereas MinValue is positive, the smallest normal number, and not the least number of the type as for integers. *)
Theorem C104_min_refuted : valid (FloatMinValue prec emax) /\ SFltb (S754_zero false) (FloatMinValue prec emax) = true /\ SFltb (SFopp (FloatMaxValue prec emax)) (FloatMinValue prec emax) = true /\
  exists x, valid x /\ IsFinite false x = true /\ SFltb x (FloatMinValue prec emax) = true.
Proof.
  assert (P : 0 < 2 ^ (prec - 1)) by (apply Z.pow_pos_nonneg; lia). split; [|split; [reflexivity|]; split; [reflexivity|]; exists (S754_zero false); repeat split; reflexivity].
  unfold FloatMinValue. cbn [valid_binary]. apply (bounded_canon prec emax Hprec Hemax). rewrite Z2Pos.id by exact P. split; [|unfold SpecFloat.emin; lia].
  split; [lia|]. split; [split; [exact P | apply Z.pow_lt_mono_r; lia]|lia].
Qed.
End Format.
Print Assumptions C104_limits.
Print Assumptions C104_min_refuted.
(** Integers: the limits are those of the type and BitCount the number of its bits. *)
Theorem C104_integers : forall t, In t int_types -> in_range t (MinValue t) = true /\ in_range t (MaxValue t) = true /\
  (forall z, in_range t z = true <-> MinValue t <= z <= MaxValue t) /\ MaxValue t - MinValue t + 1 = 2 ^ BitCount (wid t / 8).
Proof.
  intros t H. assert (R : forall z, in_range t z = true <-> MinValue t <= z <= MaxValue t) by (intros z; unfold in_range, MinValue, MaxValue; rewrite andb_true_iff, !Z.leb_le; reflexivity).
  assert (L : MinValue t <= MaxValue t /\ MaxValue t - MinValue t + 1 = 2 ^ BitCount (wid t / 8)).
  { unfold int_types in H. cbn in H. repeat (destruct H as [<-|H]; [split; [discriminate | reflexivity]|]). destruct H. }
  destruct L as (L & E). split; [apply R; lia|]. split; [apply R; lia|]. split; assumption.
Qed.
Print Assumptions C104_integers.
(** The identity behind Machin's formula, (5 + i)^4 (239 - i) = 114244 (1 + i): four times the angle of 5 + i less the angle of 239 + i is an eighth of a turn. *)
Example C104_machin : let mul (a b : Z * Z) := (fst a * fst b - snd a * snd b, fst a * snd b + snd a * fst b) in
  let sq a := mul a a in mul (sq (sq (5, 1))) (239, -1) = (114244, 114244).
Proof. reflexivity. Qed.
Example C104_nonvacuous : Pi 24 128 = S754_finite false 13176795 (-22) /\ Pi 53 1024 = S754_finite false 7074237752028440 (-51) /\ below pi_real (333 # 106) /\ above pi_real (355 # 113).
Proof. split; [vm_compute; reflexivity|]. split; [vm_compute; reflexivity|]. split; [apply pi_below; vm_compute; reflexivity | apply pi_above; vm_compute; reflexivity]. Qed.
