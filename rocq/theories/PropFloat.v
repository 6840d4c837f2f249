(** Properties C87-C93: the functions of MathUtils on floating point types. *)
From Verif Require Import FloatSpec FloatModel FloatProofs.
Open Scope Z_scope.

(** float: 24 bits, infinities at 2^128. *)
Definition f32 (s : bool) (m : positive) (e : Z) : spec_float := binary_normalize 24 128 (if s then Zneg m else Zpos m) e false.
Definition fz (n : Z) : spec_float := of_Z 24 128 n.
Definition inf : spec_float := S754_infinity false.

(** *** C87 *)
Theorem C87_constexpr_agrees x : IsFinite true x = IsFinite false x /\ IsInfinity true x = IsInfinity false x /\ IsNaN true x = IsNaN false x.
Proof.
  destruct x as [s|s| |s m e]; try (destruct s); repeat split; try reflexivity; cbn; unfold SFeqb, SFltb, SFcompare; rewrite ?Z.compare_refl; change (Pos.compare_cont Eq m m) with (Pos.compare m m); rewrite ?Pos.compare_refl; reflexivity.
Qed.
Theorem C87_one_class ce x : xorb (IsFinite ce x) (xorb (IsInfinity ce x) (IsNaN ce x)) = true /\ IsFinite ce x && IsInfinity ce x = false /\ IsFinite ce x && IsNaN ce x = false /\ IsInfinity ce x && IsNaN ce x = false.
Proof.
  destruct (C87_constexpr_agrees x) as (A & B & C). destruct ce; rewrite ?A, ?B, ?C; destruct x; repeat split; reflexivity.
Qed.
(** Finite means: strictly between the infinities. *)
Theorem C87_finite_value prec emax ce x : 1 < prec -> prec < emax -> valid_binary prec emax x = true ->
  (IsFinite ce x = true -> - top prec emax < key prec emax x < top prec emax) /\ (IsInfinity ce x = true -> Z.abs (key prec emax x) = top prec emax).
Proof.
  intros HP HE V. destruct (C87_constexpr_agrees x) as (A & B & _). pose proof (top_pos prec emax HP HE). destruct ce; rewrite ?A, ?B; (split; [now apply key_finite|]); destruct x as [s|s| |s m e]; try discriminate; intros _; cbn [key]; destruct s; lia.
Qed.
Print Assumptions C87_constexpr_agrees.
Print Assumptions C87_one_class.
Print Assumptions C87_finite_value.
Example C87_example : IsFinite true (fz 3) = true /\ IsFinite true (f32 false 1 127) = true /\ IsInfinity true (f32 false 1 128) = true /\ IsNaN true (SFsub 24 128 inf inf) = true.
Proof. repeat split; reflexivity. Qed.

Section Format.
Variables prec emax : Z.
Hypothesis Hprec : 1 < prec.
Hypothesis Hemax : prec < emax.
Local Notation valid x := (valid_binary prec emax x = true).
Local Notation key := (key prec emax).
Local Notation top := (top prec emax).
Local Notation finite x := (std_isfinite x = true).
Local Notation number x := (std_isnan x = false).

Lemma finite_number x : finite x -> number x.
Proof. destruct x; easy. Qed.
Lemma nonneg_valid : valid (S754_zero false).
Proof. reflexivity. Qed.
Lemma sub_opp a b : valid a -> valid b -> finite a -> finite b -> key a <> key b -> SFsub prec emax b a = SFopp (SFsub prec emax a b).
Proof.
  intros VA VB FA FB D. destruct a as [s1|s1| |s1 m1 e1]; try discriminate; destruct b as [s2|s2| |s2 m2 e2]; try discriminate; cbn [SFsub SFopp].
  - now destruct D.
  - now rewrite negb_involutive.
  - reflexivity.
  - rewrite (Z.min_comm e2 e1). match goal with |- binary_normalize _ _ ?p _ _ = SFopp (binary_normalize _ _ ?q _ _) => replace p with (- q) by lia; assert (N : q <> 0) end.
    + intros Q. apply D. destruct (valid_finite prec emax Hprec Hemax _ _ _ VA) as ((E1 & _) & _). destruct (valid_finite prec emax Hprec Hemax _ _ _ VB) as ((E2 & _) & _).
      rewrite !key_signed, <- (align_value prec emax m1 e1 (Z.min e1 e2)), <- (align_value prec emax m2 e2 (Z.min e1 e2)) by lia. assert (Q2 : cond_Zopp s1 (Zpos (fst (shl_align m1 e1 (Z.min e1 e2)))) = cond_Zopp s2 (Zpos (fst (shl_align m2 e2 (Z.min e1 e2))))) by lia.
      destruct s1, s2; cbn [signed cond_Zopp] in *; nia.
    + now apply normalize_opp.
Qed.
Lemma sub_sign a b : valid a -> valid b -> finite a -> finite b -> (key b <= key a -> 0 <= key (SFsub prec emax a b)) /\ (key a <= key b -> key (SFsub prec emax a b) <= 0).
Proof.
  intros VA VB FA FB. destruct (sub_faithful prec emax Hprec Hemax a b VA VB FA FB) as (_ & _ & L & U). split; intros K; [apply (L (S754_zero false)) | apply (U (S754_zero false))]; cbn [FloatSpec.key]; try reflexivity; lia.
Qed.

(** *** C88: NumberEquals *)
Theorem C88_paths_agree a b d : valid a -> valid b -> valid d -> FloatEquals prec emax true a b d = FloatEquals prec emax false a b d.
Proof.
  intros VA VB VD. unfold FloatEquals. destruct (std_isfinite a) eqn:FA; [destruct (std_isfinite b) eqn:FB|].
  - rewrite (ltb_key prec emax) by assumption. rewrite (finite_number a FA), (finite_number b FB). cbn [orb negb andb]. pose proof (sub_sign a b VA VB FA FB) as (SP & SN).
    pose proof (valid_sub prec emax Hprec Hemax a b VA VB) as VS. destruct (sub_faithful prec emax Hprec Hemax a b VA VB FA FB) as (_ & NS & _).
    destruct (Z.ltb_spec (key a) (key b)) as [L|L].
    + rewrite sub_opp by (assumption || lia). specialize (SN ltac:(lia)). rewrite !(leb_key prec emax) by (assumption || now apply valid_opp || now apply valid_abs). rewrite key_opp, (key_abs prec emax) by assumption.
      destruct (SFsub prec emax a b); cbn [SFopp SFabs std_isnan orb negb andb] in *; try discriminate; destruct (std_isnan d); cbn [orb negb andb]; f_equal; lia.
    + specialize (SP L). rewrite !(leb_key prec emax) by (assumption || now apply valid_abs). rewrite (key_abs prec emax) by assumption. rewrite Z.abs_eq by exact SP. destruct (SFsub prec emax a b); reflexivity.
  - destruct a as [s|s| |s m e]; try discriminate; destruct b as [t|t| |t m' e']; try discriminate; try reflexivity; destruct t; reflexivity.
  - destruct a as [s|s| |s m e]; try discriminate; destruct b as [t|t| |t m' e']; try reflexivity; destruct s; try reflexivity; destruct t; reflexivity.
Qed.
Theorem C88_symmetric ce a b d : valid a -> valid b -> valid d -> FloatEquals prec emax ce a b d = FloatEquals prec emax ce b a d.
Proof.
  intros VA VB VD. assert (R : FloatEquals prec emax false a b d = FloatEquals prec emax false b a d).
  { unfold FloatEquals. destruct (std_isfinite a) eqn:FA; [destruct (std_isfinite b) eqn:FB|].
    - destruct (Z.eq_dec (key a) (key b)) as [E|E].
      + pose proof (valid_sub prec emax Hprec Hemax a b VA VB) as VS. pose proof (valid_sub prec emax Hprec Hemax b a VB VA) as VS'.
        destruct (sub_faithful prec emax Hprec Hemax a b VA VB FA FB) as (_ & NS & _). destruct (sub_faithful prec emax Hprec Hemax b a VB VA FB FA) as (_ & NS' & _).
        pose proof (sub_sign a b VA VB FA FB). pose proof (sub_sign b a VB VA FB FA). rewrite !(leb_key prec emax) by (assumption || now apply valid_abs). rewrite !(key_abs prec emax) by assumption.
        replace (key (SFsub prec emax a b)) with 0 by lia. replace (key (SFsub prec emax b a)) with 0 by lia. destruct (SFsub prec emax a b), (SFsub prec emax b a); cbn [SFabs std_isnan] in *; try discriminate; reflexivity.
      + rewrite (sub_opp a b) by assumption. f_equal. now destruct (SFsub prec emax a b).
    - destruct a as [s|s| |s m e]; try discriminate; destruct b as [t|t| |t m' e']; try discriminate; reflexivity.
    - destruct a as [s|s| |s m e]; try discriminate; destruct b as [t|t| |t m' e']; try reflexivity; destruct s, t; reflexivity. }
  destruct ce; [|exact R]. now rewrite !C88_paths_agree.
Qed.
Lemma equals_rt a b d : valid a -> valid b -> valid d -> finite a -> finite b -> number d -> FloatEquals prec emax false a b d = (Z.abs (key (SFsub prec emax a b)) <=? key d).
Proof.
  intros VA VB VD FA FB ND. unfold FloatEquals. pose proof (valid_sub prec emax Hprec Hemax a b VA VB) as VS. destruct (sub_faithful prec emax Hprec Hemax a b VA VB FA FB) as (_ & NS & _). rewrite (leb_key prec emax) by (assumption || now apply valid_abs).
  rewrite (key_abs prec emax) by assumption. rewrite ND. destruct (SFsub prec emax a b); cbn [SFabs std_isnan orb negb andb] in *; try discriminate; reflexivity.
Qed.
Lemma sub_between a b x : valid a -> valid b -> finite a -> finite b -> valid x -> number x -> (Z.abs (key a - key b) <= key x -> Z.abs (key (SFsub prec emax a b)) <= key x) /\ (0 <= key x <= Z.abs (key a - key b) -> key x <= Z.abs (key (SFsub prec emax a b))).
Proof.
  intros VA VB FA FB VX NX. destruct (sub_faithful prec emax Hprec Hemax a b VA VB FA FB) as (_ & _ & L & U). pose proof (L x VX NX) as L1. pose proof (U x VX NX) as U1.
  assert (NO : number (SFopp x)) by now destruct x. pose proof (L (SFopp x) (valid_opp prec emax x VX) NO) as L2. pose proof (U (SFopp x) (valid_opp prec emax x VX) NO) as U2. rewrite key_opp in L2, U2. lia.
Qed.
(** Two numbers whose exact difference is at most [d] are equal... *)
Theorem C88_complete ce a b d : valid a -> valid b -> valid d -> finite a -> finite b -> number d -> Z.abs (key a - key b) <= key d -> FloatEquals prec emax ce a b d = true.
Proof.
  intros VA VB VD FA FB ND K. assert (R : FloatEquals prec emax false a b d = true) by (rewrite equals_rt by assumption; apply Z.leb_le; now apply sub_between). destruct ce; [now rewrite C88_paths_agree | exact R].
Qed.
(** ... and two equal numbers differ by less than any number above [d]. *)
Theorem C88_sound ce a b d d' : valid a -> valid b -> valid d -> valid d' -> finite a -> finite b -> number d -> number d' -> 0 <= key d < key d' -> FloatEquals prec emax ce a b d = true -> Z.abs (key a - key b) < key d'.
Proof.
  intros VA VB VD VD' FA FB ND ND' K E. assert (R : FloatEquals prec emax false a b d = true) by (destruct ce; [now rewrite <- C88_paths_agree | exact E]). rewrite equals_rt in R by assumption.
  destruct (Z.lt_ge_cases (Z.abs (key a - key b)) (key d')) as [L|L]; [exact L|]. exfalso. pose proof (proj2 (sub_between a b d' VA VB FA FB VD' ND') ltac:(lia)). lia.
Qed.
(** Exactly, when the difference is a number of the format. *)
Theorem C88_exact_partial ce a b d x : valid a -> valid b -> valid d -> finite a -> finite b -> number d -> valid x -> number x -> key x = Z.abs (key a - key b) -> FloatEquals prec emax ce a b d = (Z.abs (key a - key b) <=? key d).
Proof.
  intros VA VB VD FA FB ND VX NX K. assert (R : FloatEquals prec emax false a b d = (Z.abs (key a - key b) <=? key d)) by (rewrite equals_rt by assumption; pose proof (sub_between a b x VA VB FA FB VX NX); f_equal; lia). destruct ce; [now rewrite C88_paths_agree | exact R].
Qed.
Theorem C88_reflexive ce a d : valid a -> valid d -> finite a -> number d -> 0 <= key d -> FloatEquals prec emax ce a a d = true.
Proof. intros VA VD FA ND K. apply C88_complete; try assumption. rewrite Z.sub_diag. exact K. Qed.
(** An infinity does not equal itself, whatever the difference allowed. *)
Theorem C88_infinity_refuted ce s d : FloatEquals prec emax ce (S754_infinity s) (S754_infinity s) d = false.
Proof. destruct ce, s; reflexivity. Qed.

(** *** C89: Clamp *)
Theorem C89_clamp v lo hi : valid v -> valid lo -> valid hi -> number v -> number lo -> number hi -> key lo <= key hi ->
  FloatClamp v lo hi = if key v <? key lo then lo else if key hi <? key v then hi else v.
Proof.
  intros VV VL VH NV NL NH K. unfold FloatClamp, std_max, std_min. rewrite (ltb_key prec emax Hprec Hemax hi v) by assumption. rewrite NV, NH. cbn [orb negb andb]. destruct (Z.ltb_spec (key hi) (key v)).
  - rewrite (ltb_key prec emax) by assumption. rewrite NL, NH. cbn [orb negb andb]. destruct (Z.ltb_spec (key hi) (key lo)); [lia|]. now destruct (Z.ltb_spec (key v) (key lo)); [lia|].
  - rewrite (ltb_key prec emax) by assumption. rewrite NL, NV. cbn [orb negb andb]. now destruct (Z.ltb_spec (key v) (key lo)).
Qed.
Theorem C89_clamp_in_range v lo hi : valid v -> valid lo -> valid hi -> number v -> number lo -> number hi -> key lo <= key hi -> key lo <= key (FloatClamp v lo hi) <= key hi /\ number (FloatClamp v lo hi).
Proof. intros VV VL VH NV NL NH K. rewrite C89_clamp by assumption. destruct (Z.ltb_spec (key v) (key lo)); [split; [lia | exact NL]|]. destruct (Z.ltb_spec (key hi) (key v)); (split; [lia | assumption]). Qed.
Theorem C89_clamp_twice v lo hi : valid v -> valid lo -> valid hi -> number v -> number lo -> number hi -> key lo <= key hi -> FloatClamp (FloatClamp v lo hi) lo hi = FloatClamp v lo hi.
Proof.
  intros VV VL VH NV NL NH K. destruct (C89_clamp_in_range v lo hi VV VL VH NV NL NH K) as (R & NR). rewrite (C89_clamp (FloatClamp v lo hi) lo hi); try assumption.
  - destruct (Z.ltb_spec (key (FloatClamp v lo hi)) (key lo)); [lia|]. destruct (Z.ltb_spec (key hi) (key (FloatClamp v lo hi))); [lia | reflexivity].
  - rewrite C89_clamp by assumption. destruct (_ <? _); [assumption|]. destruct (_ <? _); assumption.
Qed.
(** With the limits in the wrong order, the lower one. *)
Theorem C89_clamp_reversed v lo hi : valid v -> valid lo -> valid hi -> number v -> number lo -> number hi -> key hi < key lo -> FloatClamp v lo hi = lo.
Proof.
  intros VV VL VH NV NL NH K. unfold FloatClamp, std_max, std_min. rewrite (ltb_key prec emax Hprec Hemax hi v) by assumption. rewrite NV, NH. cbn [orb negb andb].
  destruct (Z.ltb_spec (key hi) (key v)); rewrite (ltb_key prec emax) by assumption; rewrite NL, ?NH, ?NV; cbn [orb negb andb]; match goal with |- context [?x <? ?y] => destruct (Z.ltb_spec x y) end; lia || reflexivity.
Qed.
(** NaN goes through; NaN limits are ignored. *)
Theorem C89_clamp_nan_refuted lo hi : FloatClamp S754_nan lo hi = S754_nan.
Proof. unfold FloatClamp, std_max, std_min, SFltb. destruct hi; reflexivity. Qed.
Theorem C89_clamp_nan_limits v lo hi : FloatClamp v S754_nan hi = std_min v hi /\ FloatClamp v lo S754_nan = std_max v lo.
Proof. unfold FloatClamp. split; [unfold std_max, SFltb; destruct (std_min v hi); reflexivity | f_equal; unfold std_min, SFltb; destruct v; reflexivity]. Qed.

(** *** C90: Approach *)
Lemma add_up v i : valid v -> valid i -> finite v -> number i -> 0 <= key i -> let r := SFadd prec emax v i in
  number r /\ key v <= key r /\ (forall o, valid o -> number o -> key o <= key v + key i -> key o <= key r).
Proof.
  intros VV VI FV NI K. cbv zeta. pose proof (key_finite prec emax Hprec Hemax v VV FV) as KV. pose proof (top_pos prec emax Hprec Hemax) as TP. destruct (std_isfinite i) eqn:FI.
  - destruct (add_faithful prec emax Hprec Hemax v i VV VI FV FI) as (_ & N & L & _). split; [exact N|]. split; [apply L; [assumption | now apply finite_number | lia] | intros; now apply L].
  - assert (EI : i = S754_infinity false) by (destruct i as [s|[|]| |s m e]; try discriminate; [cbn [FloatSpec.key] in K; lia | reflexivity]). subst i. replace (SFadd prec emax v (S754_infinity false)) with (S754_infinity false) by (destruct v; try discriminate; reflexivity).
    split; [reflexivity|]. cbn [FloatSpec.key] in *. split; [lia|]. intros o VO _ _. pose proof (key_range prec emax Hprec Hemax o VO). lia.
Qed.
Theorem C90_approach_up v o i : valid v -> valid o -> valid i -> finite v -> number o -> number i -> 0 <= key i -> key v < key o ->
  let r := FloatApproach prec emax v o i in number r /\ key v <= key r <= key o /\ (key o <= key v + key i -> key r = key o).
Proof.
  intros VV VO VI FV NO NI K L. cbv zeta. unfold FloatApproach. rewrite (ltb_key prec emax) by assumption. rewrite (finite_number v FV), NO. cbn [orb negb andb]. rewrite (proj2 (Z.ltb_lt _ _) L).
  destruct (add_up v i VV VI FV NI K) as (N & B & R). specialize (R o VO NO). unfold std_min. rewrite (ltb_key prec emax) by (assumption || now apply valid_add). rewrite N, NO. cbn [orb negb andb].
  destruct (Z.ltb_spec (key o) (key (SFadd prec emax v i))); (split; [assumption|]); (split; [lia|]); intros; lia.
Qed.
Theorem C90_approach_down v o i : valid v -> valid o -> valid i -> finite v -> number o -> number i -> 0 <= key i -> key o < key v ->
  let r := FloatApproach prec emax v o i in number r /\ key o <= key r <= key v /\ (key v - key i <= key o -> key r = key o).
Proof.
  intros VV VO VI FV NO NI K L. cbv zeta. unfold FloatApproach. rewrite !(ltb_key prec emax) by assumption. rewrite (finite_number v FV), NO. cbn [orb negb andb]. rewrite (proj2 (Z.ltb_lt _ _) L). replace (key v <? key o) with false by lia.
  assert (S : let r := SFsub prec emax v i in number r /\ valid r /\ key r <= key v /\ (key v - key i <= key o -> key r <= key o)).
  { cbv zeta. pose proof (key_finite prec emax Hprec Hemax v VV FV) as KV. pose proof (top_pos prec emax Hprec Hemax) as TP. destruct (std_isfinite i) eqn:FI.
    - destruct (sub_faithful prec emax Hprec Hemax v i VV VI FV FI) as (V & N & _ & U). split; [exact N|]. split; [exact V|]. split; [apply U; [assumption | now apply finite_number | lia] | intros; now apply U].
    - assert (EI : i = S754_infinity false) by (destruct i as [s|[|]| |s m e]; try discriminate; [cbn [FloatSpec.key] in K; lia | reflexivity]). subst i. replace (SFsub prec emax v (S754_infinity false)) with (S754_infinity true) by (destruct v; try discriminate; reflexivity).
      split; [reflexivity|]. split; [reflexivity|]. cbn [FloatSpec.key] in *. split; [lia|]. pose proof (key_range prec emax Hprec Hemax o VO). lia. }
  destruct S as (N & V & B & R). unfold std_max. rewrite (ltb_key prec emax) by assumption. rewrite N, NO. cbn [orb negb andb].
  destruct (Z.ltb_spec (key (SFsub prec emax v i)) (key o)); (split; [assumption|]); (split; [lia|]); intros; lia.
Qed.
Theorem C90_approach_there v o i : valid v -> valid o -> std_isnan v || std_isnan o || (key v =? key o) = true -> FloatApproach prec emax v o i = v.
Proof.
  intros VV VO H. unfold FloatApproach. rewrite !(ltb_key prec emax) by assumption. rewrite (orb_comm (std_isnan o)). destruct (std_isnan v || std_isnan o); [reflexivity|]. cbn [orb negb andb] in *.
  replace (key v <? key o) with false by lia. now replace (key o <? key v) with false by lia.
Qed.

(** *** C91: Lerp *)
Lemma add_zero a s : valid a -> finite a -> key (SFadd prec emax a (S754_zero s)) = key a.
Proof. intros VA FA. destruct a as [t|t| |t m e]; try discriminate; [|reflexivity]. cbn [SFadd]. destruct (Bool.eqb t s); reflexivity. Qed.
Theorem C91_lerp_zero_partial a b : valid a -> finite a -> finite (SFsub prec emax b a) -> key (FloatLerp prec emax a b (S754_zero false)) = key a.
Proof. intros VA FA FS. unfold FloatLerp. destruct (SFsub prec emax b a) as [s|s| |s m e]; try discriminate; now apply add_zero. Qed.
Theorem C91_lerp_same a t : valid a -> finite a -> finite t -> key (FloatLerp prec emax a a t) = key a.
Proof.
  intros VA FA FT. unfold FloatLerp. assert (Z0 : exists s, SFsub prec emax a a = S754_zero s).
  { destruct a as [s|s| |s m e]; try discriminate; cbn [SFsub]; [destruct (Bool.eqb s (negb s)); eauto|]. rewrite Z.sub_diag. cbn [binary_normalize]. eauto. }
  destruct Z0 as (s & ->). destruct t; try discriminate; now apply add_zero.
Qed.
(** Multiplication by one. *)
Lemma round_exact s m e k : bounded prec emax m e = true -> 0 <= k -> binary_round_aux prec emax s (Zpos m * 2 ^ k) (e - k) loc_Exact = S754_finite s m e.
Proof.
  intros HB HK. pose proof (proj1 (bounded_spec prec emax m e) HB) as (HE & HT). pose proof (digits2_bounds m) as B. assert (P2 : 0 < 2 ^ k) by (apply Z.pow_pos_nonneg; lia).
  destruct (Zpos m * 2 ^ k) as [|p|p] eqn:EM; [nia| |nia]. assert (DP : Zpos (digits2_pos p) = Zpos (digits2_pos m) + k).
  { apply digits2_unique; [lia|]. rewrite <- EM. replace (Zpos (digits2_pos m) + k - 1) with (Zpos (digits2_pos m) - 1 + k) by lia. rewrite !Z.pow_add_r by lia. nia. }
  unfold binary_round_aux. unfold shr_fexp at 1. cbn [Zdigits2 shr_record_of_loc]. rewrite DP. replace (Zpos (digits2_pos m) + k + (e - k)) with (Zpos (digits2_pos m) + e) by lia.
  assert (FE : fexp prec emax (Zpos (digits2_pos m) + e) = e) by (unfold fexp; lia). rewrite FE. replace (e - (e - k)) with k by lia.
  assert (SH : exists r, shr (Build_shr_record (Zpos p) false false) (e - k) k = (r, e) /\ shifted (Zpos p) k r).
  { unfold shr. destruct k as [|n|n] eqn:EK; [| |lia].
    - eexists. split; [f_equal; lia|]. split; [cbn; now rewrite Z.div_1_r | cbn; rewrite Z.mod_1_r; tauto].
    - exists (SpecFloat.iter_pos shr_1 n (Build_shr_record (Zpos p) false false)). split; [f_equal; lia|]. apply (iter_shr_inv (shifted (Zpos p))) with (n := 0); [intros; apply shr_1_shifted; lia || assumption | lia|].
      split; [cbn; now rewrite Z.div_1_r | cbn; rewrite Z.mod_1_r; tauto]. }
  destruct SH as (r & -> & SM & SX). rewrite <- EM in SM, SX. rewrite Z.div_mul in SM by lia. rewrite Z.mod_mul in SX by lia. destruct SX as (_ & SX). specialize (SX eq_refl). apply orb_false_iff in SX. destruct r as [rm rr rs]. cbn [shr_m shr_r shr_s] in *. destruct SX as (-> & ->). subst rm.
  cbn [loc_of_shr_record round_nearest_even]. unfold shr_fexp. cbn [Zdigits2 shr_record_of_loc]. rewrite FE, Z.sub_diag. cbn [shr shr_m]. now rewrite (proj1 (Zle_is_le_bool _ _) HT).
Qed.
Lemma one_is : of_Z prec emax 1 = S754_finite false (Z.to_pos (2 ^ (prec - 1))) (1 - prec).
Proof.
  unfold of_Z. cbn [binary_normalize]. unfold binary_round. cbn [digits2_pos]. replace (fexp prec emax (1 + 0)) with (1 - prec) by (unfold fexp, emin; lia). unfold shl_align. rewrite Z.sub_0_r. destruct (1 - prec) as [|p|p] eqn:EP; [lia|lia|].
  assert (SP : Zpos (shift_pos p 1) = 1 * 2 ^ (prec - 1)) by (rewrite shift_pos_correct; change (Z.pow_pos 2 p) with (2 ^ Zpos p); replace (Zpos p) with (prec - 1) by lia; lia).
  replace (Z.to_pos (2 ^ (prec - 1))) with (shift_pos p 1) by (apply Pos2Z.inj; rewrite SP, Z2Pos.id by (apply Z.pow_pos_nonneg; lia); lia).
  pose proof (round_exact false (shift_pos p 1) (Zneg p) 0) as R. rewrite Z.mul_1_r, Z.sub_0_r in R. apply R; [|lia].
  apply bounded_spec. assert (Zpos (digits2_pos (shift_pos p 1)) = prec) by (apply digits2_unique; [lia|]; rewrite SP; split; [lia|]; rewrite Z.mul_1_l; apply Z.pow_lt_mono_r; lia). unfold emin. lia.
Qed.
Lemma mul_one x : valid x -> SFmul prec emax (of_Z prec emax 1) x = x.
Proof.
  intros V. rewrite one_is. destruct x as [s|s| |s m e]; cbn [SFmul]; try reflexivity; try (destruct s; reflexivity). replace (xorb false s) with s by (destruct s; reflexivity). cbn [valid_binary] in V. assert (P2 : 0 < 2 ^ (prec - 1)) by (apply Z.pow_pos_nonneg; lia).
  rewrite Pos2Z.inj_mul, Z2Pos.id by exact P2. rewrite (Z.mul_comm (2 ^ (prec - 1))). replace (1 - prec + e) with (e - (prec - 1)) by lia. apply round_exact; [assumption | lia].
Qed.
Theorem C91_lerp_one_partial a b x : valid a -> valid b -> finite a -> finite b -> valid x -> finite x -> key x = key b - key a -> key (FloatLerp prec emax a b (of_Z prec emax 1)) = key b.
Proof.
  intros VA VB FA FB VX FX K. unfold FloatLerp. pose proof (sub_faithful prec emax Hprec Hemax b a VB VA FB FA) as S. pose proof (faithful_exact prec emax _ _ x S VX (finite_number x FX) K) as SK.
  pose proof (proj1 S) as VS. rewrite mul_one by exact VS. pose proof (key_finite prec emax Hprec Hemax x VX FX) as KX.
  assert (FS : finite (SFsub prec emax b a)) by (destruct S as (_ & N & _); destruct (SFsub prec emax b a) as [s|s| |s m e]; try reflexivity; try discriminate; cbn [FloatSpec.key] in SK; destruct s; lia).
  apply (faithful_exact prec emax _ _ b); [|exact VB | now apply finite_number | reflexivity]. replace (key b) with (key a + key (SFsub prec emax b a)) by lia. now apply add_faithful.
Qed.

(** *** C92: DegreeToRadian and RadianToDegree are odd *)
Lemma mul_opp x y : SFmul prec emax (SFopp x) y = SFopp (SFmul prec emax x y).
Proof.
  destruct x as [s|s| |s m e], y as [t|t| |t m' e']; cbn [SFmul SFopp]; rewrite ?negb_xorb_l; try reflexivity. rewrite <- negb_xorb_l. apply round_aux_opp.
Qed.
Theorem C92_odd pi x : DegreeToRadian prec emax pi (SFopp x) = SFopp (DegreeToRadian prec emax pi x) /\ RadianToDegree prec emax pi (SFopp x) = SFopp (RadianToDegree prec emax pi x).
Proof. split; apply mul_opp. Qed.
End Format.
Print Assumptions C88_paths_agree.
Print Assumptions C88_symmetric.
Print Assumptions C88_complete.
Print Assumptions C88_sound.
Print Assumptions C88_exact_partial.
Print Assumptions C88_reflexive.
Print Assumptions C88_infinity_refuted.
Print Assumptions C89_clamp.
Print Assumptions C89_clamp_in_range.
Print Assumptions C89_clamp_twice.
Print Assumptions C89_clamp_reversed.
Print Assumptions C89_clamp_nan_refuted.
Print Assumptions C89_clamp_nan_limits.
Print Assumptions C90_approach_up.
Print Assumptions C90_approach_down.
Print Assumptions C90_approach_there.
Print Assumptions C91_lerp_zero_partial.
Print Assumptions C91_lerp_same.
Print Assumptions C91_lerp_one_partial.
Print Assumptions C92_odd.

(** Examples and refutations, in float. 1 and -2^-25 differ by more than 1, but the difference is rounded to 1. *)
Theorem C88_exact_refuted : exists a b d, valid_binary 24 128 a = true /\ valid_binary 24 128 b = true /\ valid_binary 24 128 d = true /\ key 24 128 d < Z.abs (key 24 128 a - key 24 128 b) /\ forall ce, FloatEquals 24 128 ce a b d = true.
Proof. exists (fz 1), (f32 true 1 (-25)), (fz 1). repeat (split; [vm_compute; reflexivity|]). intros [|]; vm_compute; reflexivity. Qed.
Example C88_example : FloatEquals 24 128 true (fz 3) (fz 5) (fz 2) = true /\ FloatEquals 24 128 true (fz 3) (fz 5) (fz 1) = false /\ FloatEquals 24 128 true inf (S754_infinity true) inf = true /\ FloatEquals 24 128 false S754_nan S754_nan inf = false.
Proof. repeat split; vm_compute; reflexivity. Qed.
Example C89_example : FloatClamp (fz 7) (fz 1) (fz 5) = fz 5 /\ FloatClamp (fz (-7)) (fz 1) (fz 5) = fz 1 /\ FloatClamp (fz 3) (fz 1) inf = fz 3 /\ FloatClamp inf (fz 1) (fz 5) = fz 5.
Proof. repeat split; vm_compute; reflexivity. Qed.
Example C90_example : FloatApproach 24 128 (fz 3) (fz 10) (fz 4) = fz 7 /\ FloatApproach 24 128 (fz 7) (fz 10) (fz 4) = fz 10 /\ FloatApproach 24 128 (fz 7) (fz (-10)) inf = fz (-10).
Proof. repeat split; vm_compute; reflexivity. Qed.
(** Repeated approach with a positive increment may never get nearer: 2^24 + 1 is rounded to 2^24. *)
Theorem C90_no_progress_refuted : exists v o i, valid_binary 24 128 v = true /\ valid_binary 24 128 o = true /\ valid_binary 24 128 i = true /\ key 24 128 v < key 24 128 o /\ 0 < key 24 128 i /\ forall n, Nat.iter n (fun x => FloatApproach 24 128 x o i) v = v.
Proof.
  exists (fz (2 ^ 24)), (fz (2 ^ 25)), (fz 1). repeat (split; [vm_compute; reflexivity|]). induction n as [|n IH]; [reflexivity|]. cbn [Nat.iter]. change (Nat.iter (S n) ?f ?x) with (f (Nat.iter n f x)). cbn [Nat.iter nat_rect] in *. rewrite IH. vm_compute. reflexivity.
Qed.
(** From minus infinity by infinite steps, NaN. *)
Theorem C90_infinite_refuted prec emax o : valid_binary prec emax o = true -> std_isfinite o = true -> FloatApproach prec emax (S754_infinity true) o inf = S754_nan.
Proof. intros V F. destruct o; try discriminate; reflexivity. Qed.
(** Lerp with factor 1 misses the end: -1 + (2^-25 - -1) = 0. It can also pass it. With a difference that overflows, factor 0 gives NaN. *)
Theorem C91_lerp_one_refuted : exists a b, valid_binary 24 128 a = true /\ valid_binary 24 128 b = true /\ 0 < key 24 128 b /\ key 24 128 (FloatLerp 24 128 a b (fz 1)) = 0.
Proof. exists (fz (-1)), (f32 false 1 (-25)). repeat (split; [vm_compute; reflexivity|]). vm_compute. reflexivity. Qed.
Theorem C91_lerp_beyond_refuted : exists a b, valid_binary 24 128 a = true /\ valid_binary 24 128 b = true /\ key 24 128 a < key 24 128 b < key 24 128 (FloatLerp 24 128 a b (fz 1)).
Proof. exists (fz (-1)), (f32 false 3 (-25)). repeat (split; [vm_compute; reflexivity|]). vm_compute. reflexivity. Qed.
Theorem C91_lerp_zero_refuted : exists a b, valid_binary 24 128 a = true /\ valid_binary 24 128 b = true /\ std_isfinite a = true /\ std_isfinite b = true /\ FloatLerp 24 128 a b (S754_zero false) = S754_nan.
Proof. exists (f32 true 1 127), (f32 false 1 127). repeat (split; [vm_compute; reflexivity|]). vm_compute. reflexivity. Qed.
Example C91_example : FloatLerp 24 128 (fz 2) (fz 4) (f32 false 1 (-1)) = fz 3 /\ FloatLerp 24 128 (fz 2) (fz 4) (fz 1) = fz 4 /\ FloatLerp 24 128 (fz 2) (fz 4) (fz 0) = fz 2.
Proof. repeat split; vm_compute; reflexivity. Qed.

(** The constants: T(3.1415926535897932384626433832795), rounded to nearest. *)
Definition pi32 : spec_float := S754_finite false 13176795 (-22).
Definition pi64 : spec_float := S754_finite false 7074237752028440 (-51).
Theorem C92_half_turn : DegreeToRadian 24 128 pi32 (fz 180) = pi32 /\ DegreeToRadian 53 1024 pi64 (of_Z 53 1024 180) = pi64.
Proof. split; vm_compute; reflexivity. Qed.
Theorem C92_turns : map (fun n => DegreeToRadian 24 128 pi32 (fz n)) [0; 45; 90; 360] = map (fun k => f32 false 13176795 k) [-1000; -24; -23; -21] /\ RadianToDegree 24 128 pi32 pi32 = fz 180 /\ RadianToDegree 53 1024 pi64 pi64 = of_Z 53 1024 180.
Proof. repeat split; vm_compute; reflexivity. Qed.
(** One degree does not survive in float, nor three degrees in double. *)
Theorem C92_round_trip_refuted : RadianToDegree 24 128 pi32 (DegreeToRadian 24 128 pi32 (fz 1)) <> fz 1 /\ RadianToDegree 53 1024 pi64 (DegreeToRadian 53 1024 pi64 (of_Z 53 1024 3)) <> of_Z 53 1024 3.
Proof. split; intros H; vm_compute in H; discriminate. Qed.

(** *** C93: Mod *)
Theorem C93_zero prec emax s y : std_isfinite y = true -> SFeqb y (S754_zero false) = false -> exists r, FloatMod prec emax true (S754_zero s) y = Done r /\ FloatMod prec emax false (S754_zero s) y = Done (S754_zero s) /\ SFeqb r (S754_zero s) = true.
Proof. intros F N. destruct y as [t|t| |t m e]; try discriminate. unfold FloatMod. cbn. eexists. split; [reflexivity|]. split; [reflexivity|]. now destruct s, t. Qed.
(** 1 mod 0.1f is 0 in a constant expression, and nearly 0.1 at run time. *)
Definition tenth : spec_float := SFdiv 24 128 (fz 1) (fz 10).
Theorem C93_paths_refuted : FloatMod 24 128 true (fz 1) tenth = Done (fz 0) /\ exists r, FloatMod 24 128 false (fz 1) tenth = Done r /\ SFltb (SFdiv 24 128 tenth (fz 2)) r = true.
Proof. split; [vm_compute; reflexivity|]. eexists. split; vm_compute; reflexivity. Qed.
(** Infinite divisors, and quotients of 2^63 or more. *)
Theorem C93_infinite_divisor_refuted prec emax s m e : FloatMod prec emax true (S754_finite s m e) inf = Done S754_nan /\ FloatMod prec emax false (S754_finite s m e) inf = Done (S754_finite s m e).
Proof. split; reflexivity. Qed.
Theorem C93_large_quotient_refuted : FloatMod 24 128 true (fz (2 ^ 63)) (fz 1) = Fault FUB /\ FloatMod 24 128 false (fz (2 ^ 63)) (fz 1) = Done (fz 0).
Proof. split; vm_compute; reflexivity. Qed.
Print Assumptions C88_exact_refuted.
Print Assumptions C90_no_progress_refuted.
Print Assumptions C90_infinite_refuted.
Print Assumptions C91_lerp_one_refuted.
Print Assumptions C91_lerp_beyond_refuted.
Print Assumptions C91_lerp_zero_refuted.
Print Assumptions C92_half_turn.
Print Assumptions C92_turns.
Print Assumptions C92_round_trip_refuted.
Print Assumptions C93_zero.
Print Assumptions C93_paths_refuted.
Print Assumptions C93_infinite_divisor_refuted.
Print Assumptions C93_large_quotient_refuted.
