(** Property C128: SafeCast to floating point types. *)
From Verif Require Import Base CInt FloatSpec FloatModel FloatProofs FloatRound FloatError FloatOps SafeCastModel SafeCastFloatModel.
Open Scope Z_scope.
Local Ltac zlia := repeat match goal with H : @eq bool _ _ |- _ => clear H end; lia.

(** A narrower format (p, e) and a wider one (P, E). The values of the narrower are multiples of 2^emin, which is [unit] times the smallest number of the wider. *)
Section Two.
Variables p e P E : Z.
Hypothesis Hp : 1 < p.
Hypothesis He : p < e.
Hypothesis HP : p <= P.
Hypothesis HE : e <= E.
Hypothesis HPE : P < E.
Notation valid x := (valid_binary p e x = true).
Notation wvalid x := (valid_binary P E x = true).
Notation finite x := (std_isfinite x = true).
Notation number x := (std_isnan x = false).
Definition unit_ : Z := 2 ^ (emin p e - emin P E).

Lemma emin_le : emin P E <= emin p e.
Proof. unfold emin. lia. Qed.
Lemma unit_pos : 0 < unit_.
Proof. apply Z.pow_pos_nonneg; pose proof emin_le; lia. Qed.
Lemma signed_neg (s : bool) m : (if s then Zneg m else Zpos m) = signed s (Zpos m).
Proof. destruct s; reflexivity. Qed.
Lemma signed_mul_r s a b : signed s a * b = signed s (a * b).
Proof. destruct s; cbn [signed]; ring. Qed.

(** From the narrower to the wider format nothing changes. *)
Lemma convert_up x : valid x -> finite x -> wvalid (convert P E x) /\ finite (convert P E x) /\ key P E (convert P E x) = key p e x * unit_.
Proof.
  intros V F. destruct x as [s|s| |s m ex]; try discriminate; [repeat split|]. destruct (valid_finite p e Hp He s m ex V) as ((C1 & C2 & C3) & C4 & C5). pose proof emin_le as EL. cbn [convert].
  assert (HP1 : 1 < P) by lia. pose proof (normalize_rounded P E HP1 HPE (if s then Zneg m else Zpos m) ex (emin P E) s ltac:(lia) ltac:(lia)) as R. rewrite Z.sub_diag in R. change (2 ^ 0) with 1 in R.
  set (y := binary_normalize P E (if s then Zneg m else Zpos m) ex s) in *. rewrite signed_neg in R.
  assert (X : Zpos m * 2 ^ (ex - emin P E) = Zpos m * 2 ^ (ex - emin p e) * unit_). { unfold unit_. rewrite <- Z.mul_assoc, <- Z.pow_add_r by lia. do 2 f_equal. lia. }
  assert (T : top p e * unit_ <= top P E). { unfold top, unit_. rewrite <- Z.pow_add_r by (unfold emin in *; lia). apply Z.pow_le_mono_r; unfold emin in *; lia. }
  assert (B : Zpos m * 2 ^ (ex - emin P E) < top P E). { rewrite X. apply Z.lt_le_trans with (top p e * unit_); [|exact T]. apply Z.mul_lt_mono_pos_r; [apply unit_pos | lia]. }
  assert (P2 : 2 ^ p <= 2 ^ P) by (apply Z.pow_le_mono_r; lia).
  assert (A : Z.abs (signed s (Zpos m)) = Zpos m) by (destruct s; reflexivity).
  destruct (number_of P E HP1 HPE (signed s (Zpos m)) (ex - emin P E)) as (z & VZ & NZ & KZ); [rewrite A; lia | lia | rewrite A; lia |].
  pose proof (rounded_exact P E _ 1 _ _ Z.lt_0_1 R VZ NZ ltac:(rewrite KZ; ring)) as K. rewrite KZ in K. destruct R as (VY & NY & _).
  assert (KY : key P E y = key p e (S754_finite s m ex) * unit_). { rewrite K, key_signed, !signed_mul_r, X. reflexivity. }
  split; [exact VY|]. split; [|exact KY]. apply (finite_key P E HP1 HPE y VY NY). rewrite K, signed_mul_r. destruct s; cbn [signed]; lia.
Qed.

(** From the wider to the narrower, correctly rounded. *)
Lemma convert_down x : wvalid x -> finite x -> rounded p e (key P E x) unit_ (convert p e x).
Proof.
  intros V F. assert (HP1 : 1 < P) by lia. destruct x as [s|s| |s m ex]; try discriminate; [apply zero_rounded|]. destruct (valid_finite P E HP1 HPE s m ex V) as ((C1 & C2 & C3) & C4 & C5).
  cbn [convert]. rewrite key_signed, signed_neg, <- signed_mul_r. apply normalize_rounded; [exact Hp | exact He | exact C1 | exact emin_le].
Qed.

Definition largest : Z := (2 ^ p - 1) * 2 ^ (e - p - emin p e).
Lemma max_pos : Zpos (Z.to_pos (2 ^ p - 1)) = 2 ^ p - 1.
Proof. apply Z2Pos.id. pose proof (Z.pow_le_mono_r 2 1 p ltac:(lia) ltac:(lia)). lia. Qed.
Lemma limit_valid s : valid (S754_finite s (Z.to_pos (2 ^ p - 1)) (e - p)).
Proof.
  cbn [valid_binary]. apply (bounded_canon p e Hp He). rewrite max_pos. pose proof (Z.pow_le_mono_r 2 1 (p - 1) ltac:(lia) ltac:(lia)). assert (D : 2 ^ p = 2 * 2 ^ (p - 1)) by (rewrite <- Z.pow_succ_r by lia; f_equal; lia).
  split; [|lia]. split; [unfold emin; lia|]. split; [lia|]. intros _. lia.
Qed.
Lemma limit_key s : key p e (S754_finite s (Z.to_pos (2 ^ p - 1)) (e - p)) = signed s largest.
Proof. rewrite key_signed, max_pos. reflexivity. Qed.
Lemma largest_top : 0 < largest < top p e.
Proof. pose proof (valid_finite p e Hp He false _ _ (limit_valid false)) as (_ & _ & B). rewrite max_pos in B. exact B. Qed.
(** There is no number between the largest and infinity. *)
Lemma largest_finite x : valid x -> finite x -> Z.abs (key p e x) <= largest.
Proof.
  intros V F. destruct x as [s|s| |s m ex]; try discriminate; [cbn; apply Z.lt_le_incl; apply largest_top|]. destruct (valid_finite p e Hp He s m ex V) as ((C1 & C2 & C3) & C4 & C5).
  rewrite key_signed. replace (Z.abs (signed s (Zpos m * 2 ^ (ex - emin p e)))) with (Zpos m * 2 ^ (ex - emin p e)) by (destruct s; cbn [signed]; lia).
  unfold largest. apply Z.mul_le_mono_nonneg; [lia | lia | apply Z.pow_nonneg; lia | apply Z.pow_le_mono_r; lia].
Qed.
End Two.

(** The comparisons of the wider format. *)
Lemma check_max P E (x hi : spec_float) : 1 < P -> P < E -> valid_binary P E x = true -> valid_binary P E hi = true -> std_isfinite hi = true -> SFleb x hi = negb (std_isnan x) && (key P E x <=? key P E hi).
Proof. intros H1 H2 V1 V2 F. rewrite (leb_key P E H1 H2) by assumption. now rewrite (finite_number _ F), orb_false_r. Qed.
Lemma check_low P E (x lo : spec_float) : 1 < P -> P < E -> valid_binary P E x = true -> valid_binary P E lo = true -> std_isfinite lo = true -> SFleb lo x = negb (std_isnan x) && (key P E lo <=? key P E x).
Proof. intros H1 H2 V1 V2 F. rewrite (leb_key P E H1 H2) by assumption. now rewrite (finite_number _ F). Qed.

(** Widening: every finite number is accepted and keeps its value; infinities and NaN are refused, though the wider type has them. *)
Theorem C128_widening_partial : forall p e P E v, 1 < p -> p < e -> p <= P -> e <= E -> P < E -> valid_binary p e v = true ->
  safe_cast_fp true Rvalue (p, e) (P, E) v = (if std_isfinite v then Done (convert P E v) else Fault FAssert) /\
  (std_isfinite v = true -> std_isfinite (convert P E v) = true /\ key P E (convert P E v) = key p e v * 2 ^ (emin p e - emin P E)).
Proof.
  intros p e P E v Hp He HP HE HPE V. split; [|intros F; exact (proj2 (convert_up p e P E Hp He HP HE HPE v V F))].
  unfold safe_cast_fp. cbn [fst snd by_value andb]. rewrite Z.gtb_ltb. replace (P <? p) with false by lia. cbn [fst snd]. assert (HP1 : 1 < P) by lia.
  destruct (convert_up P E P E HP1 HPE ltac:(lia) ltac:(lia) HPE _ (limit_valid P E HP1 HPE false) eq_refl) as (M1 & M2 & M3).
  destruct (convert_up P E P E HP1 HPE ltac:(lia) ltac:(lia) HPE _ (limit_valid P E HP1 HPE true) eq_refl) as (L1 & L2 & L3).
  assert (U : unit_ P E P E = 1) by (unfold unit_; now rewrite Z.sub_diag). rewrite U, Z.mul_1_r, (limit_key P E HP1 false) in M3. rewrite U, Z.mul_1_r, (limit_key P E HP1 true) in L3. cbn [signed] in M3, L3.
  pose proof (largest_top P E HP1 HPE) as LT. pose proof (top_pos P E HP1 HPE) as TP. unfold limit_max, limit_lowest.
  destruct (std_isfinite v) eqn:F.
  - destruct (convert_up p e P E Hp He HP HE HPE v V F) as (W1 & W2 & W3). pose proof (largest_finite P E HP1 HPE _ W1 W2) as B.
    rewrite (check_max P E _ _ HP1 HPE) by assumption. rewrite (check_low P E _ _ HP1 HPE) by assumption. rewrite (finite_number _ W2), M3, L3. cbn [negb andb].
    replace (key P E (convert P E v) <=? largest P E) with true by lia. replace (- largest P E <=? key P E (convert P E v)) with true by lia. reflexivity.
  - destruct v as [s|s| |s m ex]; try discriminate.
    + change (convert P E (S754_infinity s)) with (S754_infinity s). rewrite (check_max P E _ _ HP1 HPE) by (trivial; try reflexivity). rewrite (check_low P E _ _ HP1 HPE) by (trivial; try reflexivity). cbn [std_isnan negb andb]. rewrite M3, L3.
      destruct s; cbn [key].
      * replace (- top P E <=? largest P E) with true by lia. replace (- largest P E <=? - top P E) with false by lia. reflexivity.
      * replace (top P E <=? largest P E) with false by lia. reflexivity.
    + reflexivity.
Qed.
Print Assumptions C128_widening_partial.

(** Narrowing: accepted exactly up to the largest number of the target; the result is finite and correctly rounded. *)
Theorem C128_narrowing_partial : forall p e P E v, 1 < p -> p < e -> p < P -> e <= E -> P < E -> valid_binary P E v = true ->
  let unit := 2 ^ (emin p e - emin P E) in
  safe_cast_fp true Rvalue (P, E) (p, e) v = (if negb (std_isnan v) && (Z.abs (key P E v) <=? key p e (limit_max p e) * unit) then Done (convert p e v) else Fault FAssert) /\
  (std_isnan v = false -> Z.abs (key P E v) <= key p e (limit_max p e) * unit -> std_isfinite (convert p e v) = true /\ rounded p e (key P E v) unit (convert p e v)).
Proof.
  intros p e P E v Hp He HP HE HPE V unit. assert (HP1 : 1 < P) by lia. assert (HP' : p <= P) by lia. pose proof (unit_pos p e P E HP' HE) as UP. fold unit in UP. unfold unit_ in UP.
  assert (KM : key p e (limit_max p e) = largest p e) by (exact (limit_key p e Hp false)). rewrite KM.
  pose proof (largest_top p e Hp He) as LT. pose proof (top_pos P E HP1 HPE) as TP.
  assert (T : top p e * unit <= top P E). { unfold top, unit. rewrite <- Z.pow_add_r by (unfold emin; lia). apply Z.pow_le_mono_r; unfold emin; lia. }
  assert (B : largest p e * unit < top P E) by (apply Z.lt_le_trans with (top p e * unit); [apply Z.mul_lt_mono_pos_r; lia | exact T]).
  assert (L0 : 0 < largest p e * unit) by (apply Z.mul_pos_pos; lia).
  split.
  - unfold safe_cast_fp. cbn [fst snd by_value andb]. rewrite Z.gtb_ltb. replace (p <? P) with true by lia. cbn [fst snd].
    destruct (convert_up p e P E Hp He HP' HE HPE _ (limit_valid p e Hp He false) eq_refl) as (M1 & M2 & M3).
    destruct (convert_up p e P E Hp He HP' HE HPE _ (limit_valid p e Hp He true) eq_refl) as (L1 & L2 & L3).
    rewrite (limit_key p e Hp false) in M3. rewrite (limit_key p e Hp true) in L3. cbn [signed] in M3, L3. unfold unit_ in M3, L3. fold unit in M3, L3. unfold limit_max, limit_lowest.
    assert (W : valid_binary P E (convert P E v) = true /\ std_isnan (convert P E v) = std_isnan v /\ key P E (convert P E v) = key P E v).
    { destruct (std_isfinite v) eqn:F; [|destruct v; try discriminate; repeat split; exact V].
      destruct (convert_up P E P E HP1 HPE ltac:(lia) ltac:(lia) HPE v V F) as (W1 & W2 & W3). split; [exact W1|]. split; [now rewrite (finite_number _ F), (finite_number _ W2)|]. rewrite W3. unfold unit_. rewrite Z.sub_diag. apply Z.mul_1_r. }
    destruct W as (W1 & W2 & W3). rewrite (check_max P E _ _ HP1 HPE) by assumption. rewrite (check_low P E _ _ HP1 HPE) by assumption. rewrite W2, W3, M3, L3.
    destruct (std_isnan v); cbn [negb andb]; [reflexivity|]. rewrite Z.mul_opp_l.
    destruct (Z.leb_spec (key P E v) (largest p e * unit)); destruct (Z.leb_spec (Z.abs (key P E v)) (largest p e * unit)); cbn [assert bind]; try lia;
      destruct (Z.leb_spec (- (largest p e * unit)) (key P E v)); cbn [assert bind]; try lia; reflexivity.
  - intros N A. assert (F : std_isfinite v = true). { apply (finite_key P E HP1 HPE v V N). lia. }
    pose proof (convert_down p e P E Hp He HP' HE HPE v V F) as R. unfold unit_ in R. fold unit in R. split; [|exact R]. pose proof R as (VR & NR & _). apply (finite_key p e Hp He _ VR NR).
    pose proof (rounded_le p e Hp He _ _ (limit_max p e) _ UP R (limit_valid p e Hp He false) eq_refl) as R1. pose proof (rounded_ge p e Hp He _ _ (limit_lowest p e) _ UP R (limit_valid p e Hp He true) eq_refl) as R2.
    assert (KL : key p e (limit_lowest p e) = - largest p e) by (exact (limit_key p e Hp true)). rewrite KM in R1. rewrite KL in R2. specialize (R1 ltac:(lia)). specialize (R2 ltac:(rewrite Z.mul_opp_l; lia)). lia.
Qed.
Print Assumptions C128_narrowing_partial.
(** A value the target has is kept. *)
Theorem C128_exact : forall p e P E v x, 1 < p -> p < e -> p < P -> e <= E -> P < E -> valid_binary P E v = true -> std_isfinite v = true -> valid_binary p e x = true -> std_isfinite x = true ->
  key P E v = key p e x * 2 ^ (emin p e - emin P E) -> exists y, safe_cast_fp true Rvalue (P, E) (p, e) v = Done y /\ std_isfinite y = true /\ key p e y = key p e x.
Proof.
  intros p e P E v x Hp He HP HE HPE V F VX FX K. assert (HP' : p <= P) by lia. pose proof (unit_pos p e P E HP' HE) as UP. unfold unit_ in UP.
  destruct (C128_narrowing_partial p e P E v Hp He HP HE HPE V) as (C & D). pose proof (largest_finite p e Hp He x VX FX) as B. assert (KM : key p e (limit_max p e) = largest p e) by (exact (limit_key p e Hp false)).
  assert (A : Z.abs (key P E v) <= key p e (limit_max p e) * 2 ^ (emin p e - emin P E)). { rewrite KM, K, Z.abs_mul, (Z.abs_eq (2 ^ _)) by lia. apply Z.mul_le_mono_nonneg_r; lia. }
  exists (convert p e v). rewrite C, (finite_number _ F). cbn [negb andb]. rewrite (proj2 (Z.leb_le _ _) A). split; [reflexivity|]. destruct (D (finite_number _ F) A) as (D1 & D2). split; [exact D1|].
  exact (rounded_exact p e _ _ _ _ UP D2 VX (finite_number _ FX) (eq_sym K)).
Qed.
Print Assumptions C128_exact.

(** No number of precision [p] has the value 2^p + 1. *)
Lemma not_a_number p e x : 1 < p -> p < e -> valid_binary p e x = true -> std_isfinite x = true -> key p e x <> (2 ^ p + 1) * 2 ^ (- emin p e).
Proof.
  intros Hp He V F K. assert (P0 : 0 < 2 ^ p) by (apply Z.pow_pos_nonneg; lia). assert (U0 : 0 < 2 ^ (- emin p e)) by (apply Z.pow_pos_nonneg; unfold emin; lia).
  destruct x as [s|s| |s m ex]; try discriminate; [cbn [key] in K; nia|]. destruct (valid_finite p e Hp He s m ex V) as ((C1 & C2 & C3) & C4 & C5). rewrite key_signed in K.
  destruct s; cbn [signed] in K; [nia|]. destruct (Z.le_gt_cases ex 0) as [L|L].
  - replace (2 ^ (- emin p e)) with (2 ^ (- ex) * 2 ^ (ex - emin p e)) in K by (rewrite <- Z.pow_add_r by lia; f_equal; lia). rewrite Z.mul_assoc in K. apply Z.mul_reg_r in K; [|lia].
    assert (1 <= 2 ^ (- ex)) by (assert (0 < 2 ^ (- ex)) by (apply Z.pow_pos_nonneg; lia); lia). nia.
  - replace (2 ^ (ex - emin p e)) with (2 ^ ex * 2 ^ (- emin p e)) in K by (rewrite <- Z.pow_add_r by (unfold emin in *; lia); f_equal; lia). rewrite Z.mul_assoc in K. apply Z.mul_reg_r in K; [|lia].
    assert (X : 2 ^ ex = 2 * 2 ^ (ex - 1)) by (rewrite <- Z.pow_succ_r by lia; f_equal; lia). assert (Y : 2 ^ p = 2 * 2 ^ (p - 1)) by (rewrite <- Z.pow_succ_r by lia; f_equal; lia).
    rewrite X, Y in K. lia.
Qed.
(** Narrowing loses precision silently. *)
Theorem C128_rounding_refuted : forall p e P E, 1 < p -> p < e -> p < P -> e <= E -> P < E -> exists v y, valid_binary P E v = true /\ std_isfinite v = true /\
  safe_cast_fp true Rvalue (P, E) (p, e) v = Done y /\ std_isfinite y = true /\ key P E v <> key p e y * 2 ^ (emin p e - emin P E).
Proof.
  intros p e P E Hp He HP HE HPE. assert (HP1 : 1 < P) by lia. assert (P0 : 2 < 2 ^ p) by (change 2 with (2 ^ 1) at 1; apply Z.pow_lt_mono_r; lia). assert (PW : 2 ^ p * 2 <= 2 ^ P) by (change 2 with (2 ^ 1) at 2; rewrite <- Z.pow_add_r by lia; apply Z.pow_le_mono_r; lia).
  destruct (of_Z_exact P E HP1 HPE (2 ^ p + 1) ltac:(lia)) as (V & F & K). pose proof (unit_pos p e P E ltac:(lia) HE) as UP. unfold unit_ in UP.
  assert (S : 2 ^ (- emin P E) = 2 ^ (- emin p e) * 2 ^ (emin p e - emin P E)) by (rewrite <- Z.pow_add_r by (unfold emin; lia); f_equal; lia).
  destruct (C128_narrowing_partial p e P E _ Hp He HP HE HPE V) as (C & D). assert (KM : key p e (limit_max p e) = largest p e) by (exact (limit_key p e Hp false)).
  assert (A : Z.abs (key P E (of_Z P E (2 ^ p + 1))) <= key p e (limit_max p e) * 2 ^ (emin p e - emin P E)).
  { rewrite K, KM, S, Z.mul_assoc, Z.abs_mul, (Z.abs_eq (2 ^ (emin p e - emin P E))) by lia. apply Z.mul_le_mono_nonneg_r; [lia|]. rewrite Z.abs_eq by (apply Z.mul_nonneg_nonneg; [lia | apply Z.pow_nonneg; lia]).
    unfold largest. replace (2 ^ (e - p - emin p e)) with (2 ^ (e - p) * 2 ^ (- emin p e)) by (rewrite <- Z.pow_add_r by (unfold emin; lia); f_equal; lia). rewrite Z.mul_assoc. apply Z.mul_le_mono_nonneg_r; [apply Z.pow_nonneg; lia|].
    assert (2 <= 2 ^ (e - p)) by (change 2 with (2 ^ 1) at 1; apply Z.pow_le_mono_r; lia). nia. }
  destruct (D (finite_number _ F) A) as (D1 & D2 & D3). exists (of_Z P E (2 ^ p + 1)), (convert p e (of_Z P E (2 ^ p + 1))). split; [exact V|]. split; [exact F|]. split.
  - rewrite C, (finite_number _ F). cbn [negb andb]. rewrite (proj2 (Z.leb_le _ _) A). reflexivity.
  - split; [exact D1|]. rewrite K, S, Z.mul_assoc. intros X. apply Z.mul_reg_r in X; [|lia]. exact (not_a_number p e _ Hp He D2 D1 (eq_sym X)).
Qed.
Print Assumptions C128_rounding_refuted.
(** For lvalues, and without NAZARA_DEBUG, nothing is checked: 2^e and more become infinity. *)
Theorem C128_unchecked_refuted : forall p e P E v debug c, 1 < p -> p < e -> p < P -> e <= E -> P < E -> valid_binary P E v = true -> std_isfinite v = true -> debug = false \/ c = Lvalue ->
  safe_cast_fp debug c (P, E) (p, e) v = Done (convert p e v) /\ (top p e * 2 ^ (emin p e - emin P E) <= key P E v -> convert p e v = S754_infinity false).
Proof.
  intros p e P E v debug c Hp He HP HE HPE V F H. split.
  - unfold safe_cast_fp. replace (debug && by_value c) with false by (destruct H as [-> | ->]; [reflexivity | now destruct debug]). reflexivity.
  - intros L. assert (HP' : p <= P) by lia. pose proof (unit_pos p e P E HP' HE) as UP. pose proof (convert_down p e P E Hp He HP' HE HPE v V F) as R. pose proof (top_pos p e Hp He) as TP.
    pose proof (rounded_ge p e Hp He _ _ (S754_infinity false) _ UP R eq_refl eq_refl L) as G. cbn [key] in G. pose proof R as (VR & NR & _). pose proof (finite_key p e Hp He _ VR NR) as FK.
    destruct (convert p e v) as [s|s| |s m ex]; [cbn [key] in G; lia | destruct s; [cbn [key] in G; lia | reflexivity] | discriminate |]. exfalso. assert (Q : Z.abs (key p e (S754_finite s m ex)) < top p e) by (now apply FK). lia.
Qed.
Print Assumptions C128_unchecked_refuted.
(** From integers: never refused, exact up to 2^p, correctly rounded and finite beyond. *)
Theorem C128_integers : forall p e n debug c, 1 < p -> p < e -> exists y, safe_cast_int_fp debug c (p, e) n = Done y /\ rounded p e (n * 2 ^ (- emin p e)) 1 y /\
  (Z.abs n <= 2 ^ p -> std_isfinite y = true /\ key p e y = n * 2 ^ (- emin p e)) /\ (Z.abs n <= 2 ^ (e - 1) -> std_isfinite y = true).
Proof.
  intros p e n debug c Hp He. exists (of_Z p e n). split; [reflexivity|]. pose proof (of_Z_rounded p e Hp He n) as R. split; [exact R|]. split.
  - intros B. destruct (of_Z_exact p e Hp He n B) as (_ & F & K). auto.
  - intros B. pose proof R as (VR & NR & _). apply (finite_key p e Hp He _ VR NR). assert (U : 0 < 2 ^ (- emin p e)) by (apply Z.pow_pos_nonneg; unfold emin; lia).
    assert (T : 2 ^ (e - 1) * 2 ^ (- emin p e) < top p e). { rewrite <- Z.pow_add_r by (unfold emin; lia). apply Z.pow_lt_mono_r; unfold emin; lia. }
    assert (T' : 1 * 2 ^ (e - 1 - emin p e) = 2 ^ (e - 1) * 2 ^ (- emin p e)) by (rewrite Z.mul_1_l, <- Z.pow_add_r by (unfold emin; lia); f_equal; lia).
    assert (P1 : 1 <= 2 ^ p) by (assert (0 < 2 ^ p) by (apply Z.pow_pos_nonneg; lia); lia).
    destruct (number_of p e Hp He 1 (e - 1 - emin p e) ltac:(cbn; lia) ltac:(unfold emin; lia) ltac:(cbn [Z.abs]; lia)) as (x & VX & NX & KX).
    destruct (number_of p e Hp He (-1) (e - 1 - emin p e) ltac:(cbn; lia) ltac:(unfold emin; lia) ltac:(cbn [Z.abs]; lia)) as (z & VZ & NZ & KZ).
    pose proof (rounded_le p e Hp He _ _ x _ Z.lt_0_1 R VX NX) as R1. pose proof (rounded_ge p e Hp He _ _ z _ Z.lt_0_1 R VZ NZ) as R2. rewrite KX, T' in R1. rewrite KZ in R2. replace (-1 * 2 ^ (e - 1 - emin p e)) with (- (2 ^ (e - 1) * 2 ^ (- emin p e))) in R2 by lia.
    specialize (R1 ltac:(nia)). specialize (R2 ltac:(nia)). lia.
Qed.
Print Assumptions C128_integers.
(** 2^24 + 1 is not a float. *)
Theorem C128_integers_refuted : forall p e debug c, 1 < p -> p + 1 < e -> exists y, safe_cast_int_fp debug c (p, e) (2 ^ p + 1) = Done y /\ key p e y <> (2 ^ p + 1) * 2 ^ (- emin p e).
Proof.
  intros p e debug c Hp He'. assert (He : p < e) by lia. destruct (C128_integers p e (2 ^ p + 1) debug c Hp He) as (y & Y & (V & _) & _ & F). exists y. split; [exact Y|]. apply not_a_number; auto. apply F.
  assert (P0 : 0 < 2 ^ p) by (apply Z.pow_pos_nonneg; lia). rewrite Z.abs_eq by lia.
  apply Z.le_trans with (2 ^ (p + 1)); [rewrite Z.pow_add_r by lia; lia | apply Z.pow_le_mono_r; lia].
Qed.
Print Assumptions C128_integers_refuted.
Example C128_nonvacuous : safe_cast_fp true Rvalue (53, 1024) (24, 128) (of_Z 53 1024 16777217) = Done (of_Z 24 128 16777216) /\ safe_cast_fp true Rvalue (53, 1024) (24, 128) (of_Z 53 1024 (2 ^ 128)) = Fault FAssert /\
  safe_cast_fp true Lvalue (53, 1024) (24, 128) (of_Z 53 1024 (2 ^ 128)) = Done (S754_infinity false) /\ safe_cast_fp true Rvalue (24, 128) (53, 1024) (of_Z 24 128 5) = Done (of_Z 53 1024 5) /\
  safe_cast_fp true Rvalue (24, 128) (53, 1024) (S754_infinity false) = Fault FAssert /\ safe_cast_int_fp true Rvalue (24, 128) 16777217 = Done (of_Z 24 128 16777216).
Proof. vm_compute. repeat split; reflexivity. Qed.
