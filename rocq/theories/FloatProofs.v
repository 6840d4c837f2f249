(** Floating point numbers as integers: a finite number is a multiple of the smallest positive one. Order and rounding of sums, without real numbers. *)
From Verif Require Import FloatSpec FloatModel.
Open Scope Z_scope.

Lemma iter_shr_inv (P : Z -> shr_record -> Prop) : (forall n r, 0 <= n -> P n r -> P (n + 1) (shr_1 r)) -> forall p n r, 0 <= n -> P n r -> P (n + Zpos p) (SpecFloat.iter_pos shr_1 p r).
Proof.
  intros H p. induction p as [p IH|p IH|]; intros n r HN HP; cbn [SpecFloat.iter_pos].
  - replace (n + Zpos p~1) with (n + 1 + Zpos p + Zpos p) by lia. apply IH; [lia|]. apply IH; [lia|]. now apply H.
  - replace (n + Zpos p~0) with (n + Zpos p + Zpos p) by lia. apply IH; [lia|]. now apply IH.
  - now apply H.
Qed.

(** The record after n shifts of [m0]: the quotient, and whether something was lost. *)
Definition shifted (m0 n : Z) (r : shr_record) : Prop := shr_m r = m0 / 2 ^ n /\ (shr_r r || shr_s r = false <-> m0 mod 2 ^ n = 0).
Lemma shr_1_shifted m0 n r : 0 <= m0 -> 0 <= n -> shifted m0 n r -> shifted m0 (n + 1) (shr_1 r).
Proof.
  intros Hm Hn (E & X). assert (P2 : 0 < 2 ^ n) by (apply Z.pow_pos_nonneg; lia). assert (HP : 2 ^ (n + 1) = 2 ^ n * 2) by (rewrite Z.pow_add_r by lia; reflexivity).
  assert (Q : 0 <= m0 / 2 ^ n) by (apply Z.div_pos; lia).
  assert (DQ : m0 / 2 ^ (n + 1) = shr_m r / 2) by (rewrite HP, E, Z.div_div by lia; reflexivity).
  assert (MQ : m0 mod 2 ^ (n + 1) = 0 <-> shr_m r mod 2 = 0 /\ m0 mod 2 ^ n = 0).
  { rewrite HP, Z.rem_mul_r by lia. rewrite <- E. pose proof (Z.mod_pos_bound m0 (2 ^ n) P2). pose proof (Z.mod_pos_bound (shr_m r) 2 ltac:(lia)). nia. }
  unfold shifted. rewrite DQ, MQ. rewrite <- X. rewrite <- E in Q. clear - Q. destruct r as [m rr s]. cbn [shr_m shr_r shr_s] in *.
  destruct m as [|p|p]; [| |lia].
  - cbn. split; [reflexivity|]. rewrite orb_comm. intuition.
  - destruct p as [p|p|]; cbn [shr_1 shr_m shr_r shr_s].
    + rewrite <- Pos2Z.opp_neg || idtac. replace (Zpos p~1) with (1 + Zpos p * 2) by lia. rewrite Z.div_add, Z.mod_add by lia. cbn. split; [reflexivity|]. intuition; discriminate.
    + replace (Zpos p~0) with (0 + Zpos p * 2) by lia. rewrite Z.div_add, Z.mod_add by lia. cbn. split; [reflexivity|]. intuition.
    + cbn. intuition; discriminate.
Qed.

Lemma digits2_bounds p : 2 ^ (Zpos (digits2_pos p) - 1) <= Zpos p < 2 ^ Zpos (digits2_pos p).
Proof.
  induction p as [p IH|p IH|]; cbn [digits2_pos]; [| |cbn; lia]; rewrite Pos2Z.inj_succ; replace (Z.succ (Zpos (digits2_pos p)) - 1) with (Z.succ (Zpos (digits2_pos p) - 1)) by lia; rewrite !Z.pow_succ_r by lia; lia.
Qed.
Lemma digits2_unique p d : 0 <= d -> 2 ^ (d - 1) <= Zpos p < 2 ^ d -> Zpos (digits2_pos p) = d.
Proof.
  intros Hd H. pose proof (digits2_bounds p) as B. set (k := Zpos (digits2_pos p)) in *. assert (0 < k) by lia.
  assert (k - 1 < d) by (apply (Z.pow_lt_mono_r_iff 2); lia).
  assert (D : 0 < d) by (destruct (Z.eq_dec d 0) as [->|]; [cbn in H; lia | lia]).
  assert (d - 1 < k) by (apply (Z.pow_lt_mono_r_iff 2); lia). lia.
Qed.

Section Format.
Variables prec emax : Z.
Hypothesis Hprec : 1 < prec.
Hypothesis Hemax : prec < emax.
Local Notation emin := (emin prec emax).
Local Notation fexp := (fexp prec emax).
Local Notation valid x := (valid_binary prec emax x = true).

Local Notation top := (top prec emax).
Local Notation key := (key prec emax).

Lemma bounded_spec m e : bounded prec emax m e = true <-> e = Z.max (Zpos (digits2_pos m) + e - prec) emin /\ e <= emax - prec.
Proof.
  unfold bounded, canonical_mantissa, SpecFloat.fexp. rewrite andb_true_iff, <- Zeq_is_eq_bool, <- Zle_is_le_bool. intuition.
Qed.
(** Canonical numbers: [m] and [e] are determined by the product. *)
Definition canon (m e : Z) : Prop := emin <= e /\ 0 < m < 2 ^ prec /\ (emin < e -> 2 ^ (prec - 1) <= m).
Lemma bounded_canon m e : bounded prec emax m e = true <-> canon (Zpos m) e /\ e <= emax - prec.
Proof.
  rewrite bounded_spec. unfold canon. pose proof (digits2_bounds m) as B. set (d := Zpos (digits2_pos m)) in *. assert (0 < d) by lia. split.
  - intros (E & L). split; [|exact L]. assert (d <= prec) by lia. split; [lia|]. split; [split; [lia|]; pose proof (Z.pow_le_mono_r 2 d prec); lia|]. intros. assert (d = prec) as <- by lia. lia.
  - intros ((HE & (_ & HM) & HN) & L). split; [|exact L]. assert (d - 1 < prec) by (apply (Z.pow_lt_mono_r_iff 2); lia). destruct (Z.eq_dec e emin) as [->|]; [lia|].
    assert (prec - 1 < d) by (apply (Z.pow_lt_mono_r_iff 2); lia). lia.
Qed.
Lemma canon_lt m1 e1 m2 e2 : canon m1 e1 -> canon m2 e2 -> e1 < e2 -> m1 * 2 ^ (e1 - emin) < m2 * 2 ^ (e2 - emin).
Proof.
  intros (A1 & (_ & A2) & A3) (B1 & _ & B3) L. specialize (B3 ltac:(lia)).
  assert (P : 2 ^ (e2 - emin) = 2 ^ (e1 - emin) * 2 * 2 ^ (e2 - e1 - 1)) by (replace (e2 - emin) with (e1 - emin + 1 + (e2 - e1 - 1)) by lia; rewrite !Z.pow_add_r by lia; reflexivity).
  assert (0 < 2 ^ (e1 - emin)) by (apply Z.pow_pos_nonneg; lia). assert (1 <= 2 ^ (e2 - e1 - 1)) by (assert (0 < 2 ^ (e2 - e1 - 1)) by (apply Z.pow_pos_nonneg; lia); lia).
  replace prec with (Z.succ (prec - 1)) in A2 by lia. rewrite Z.pow_succ_r in A2 by lia. rewrite P.
  set (u := 2 ^ (e1 - emin)) in *. set (h := 2 ^ (prec - 1)) in *. set (g := 2 ^ (e2 - e1 - 1)) in *. assert (0 < h) by (apply Z.pow_pos_nonneg; lia). clearbody u h g.
  apply Z.lt_le_trans with (2 * h * u); [nia|]. apply Z.le_trans with (h * (u * 2 * 1)); [lia|]. apply Z.mul_le_mono_nonneg; nia.
Qed.
Lemma canon_top m e : canon m e -> (m * 2 ^ (e - emin) < top <-> e <= emax - prec).
Proof.
  intros C. unfold top. pose proof C as (A1 & (A0 & A2) & A3).
  assert (SE : emin < emax - prec + 1) by (unfold SpecFloat.emin; lia).
  assert (CT : canon (2 ^ (prec - 1)) (emax - prec + 1)) by (split; [lia|]; split; [split; [apply Z.pow_pos_nonneg; lia | apply Z.pow_lt_mono_r; lia] | lia]).
  assert (VT : 2 ^ (prec - 1) * 2 ^ (emax - prec + 1 - emin) = 2 ^ (emax - emin)) by (rewrite <- Z.pow_add_r by lia; f_equal; lia). split.
  - intros L. destruct (Z.le_gt_cases e (emax - prec)); [assumption|]. exfalso. destruct (Z.eq_dec e (emax - prec + 1)) as [->|].
    + specialize (A3 SE). assert (0 < 2 ^ (emax - prec + 1 - emin)) by (apply Z.pow_pos_nonneg; lia). nia.
    + pose proof (canon_lt _ _ _ _ CT C ltac:(lia)). lia.
  - intros L. pose proof (canon_lt _ _ _ _ C CT ltac:(lia)). lia.
Qed.
Lemma top_pos : 0 < top.
Proof. unfold top, SpecFloat.emin. apply Z.pow_pos_nonneg; lia. Qed.

Lemma valid_finite s m e : valid (S754_finite s m e) -> canon (Zpos m) e /\ e <= emax - prec /\ 0 < Zpos m * 2 ^ (e - emin) < top.
Proof.
  cbn [valid_binary]. rewrite bounded_canon. intros (C & L). split; [exact C|]. split; [exact L|]. split; [|now apply canon_top]. destruct C as (A & B & _). apply Z.mul_pos_pos; [lia|]. apply Z.pow_pos_nonneg; lia.
Qed.
Lemma key_range x : valid x -> - top <= key x <= top.
Proof. pose proof top_pos. destruct x as [s|s| |s m e]; intros V; cbn [key]; [lia|destruct s; lia|lia|]. apply valid_finite in V. destruct s; lia. Qed.
Lemma key_finite x : valid x -> std_isfinite x = true -> - top < key x < top.
Proof. pose proof top_pos. destruct x as [s|s| |s m e]; intros V F; try discriminate; cbn [key]; [lia|]. apply valid_finite in V. destruct s; lia. Qed.

Lemma SFcompare_key x y : valid x -> valid y -> SFcompare x y = if std_isnan x || std_isnan y then None else Some (key x ?= key y).
Proof.
  intros VX VY. pose proof top_pos as TP. destruct x as [s1|s1| |s1 m1 e1]; destruct y as [s2|s2| |s2 m2 e2]; try reflexivity; cbn [SFcompare std_isnan orb key]; f_equal; symmetry;
    try apply valid_finite in VX; try apply valid_finite in VY;
    try (destruct s1); try (destruct s2); try reflexivity; try (apply Z.compare_lt_iff; lia); try (apply Z.compare_gt_iff; lia); try (apply Z.compare_eq_iff; lia).
  all: destruct VX as (CX & _); destruct VY as (CY & _); pose proof (canon_lt _ _ _ _ CX CY) as L1; pose proof (canon_lt _ _ _ _ CY CX) as L2.
  all: change (Pos.compare_cont Eq m1 m2) with (Pos.compare m1 m2).
  all: destruct (Z.compare_spec e1 e2) as [->|L|L]; [|(apply Z.compare_lt_iff || apply Z.compare_gt_iff); lia..].
  all: assert (P : 0 < 2 ^ (e2 - emin)) by (apply Z.pow_pos_nonneg; [lia|]; destruct CY; lia).
  - rewrite Z.compare_opp, !Z.opp_involutive || idtac. destruct (Pos.compare_spec m1 m2) as [->|L|L]; cbn [CompOpp]; [apply Z.compare_refl | apply Z.compare_gt_iff; nia | apply Z.compare_lt_iff; nia].
  - destruct (Pos.compare_spec m1 m2) as [->|L|L]; [apply Z.compare_refl | apply Z.compare_lt_iff; nia | apply Z.compare_gt_iff; nia].
Qed.
Lemma ltb_key x y : valid x -> valid y -> SFltb x y = negb (std_isnan x || std_isnan y) && (key x <? key y).
Proof. intros VX VY. unfold SFltb. rewrite SFcompare_key by assumption. destruct (std_isnan x || std_isnan y); [reflexivity|]. reflexivity. Qed.
Lemma leb_key x y : valid x -> valid y -> SFleb x y = negb (std_isnan x || std_isnan y) && (key x <=? key y).
Proof. intros VX VY. unfold SFleb. rewrite SFcompare_key by assumption. destruct (std_isnan x || std_isnan y); [reflexivity|]. reflexivity. Qed.
Lemma eqb_key x y : valid x -> valid y -> SFeqb x y = negb (std_isnan x || std_isnan y) && (key x =? key y).
Proof. intros VX VY. unfold SFeqb. rewrite SFcompare_key by assumption. destruct (std_isnan x || std_isnan y); [reflexivity|]. cbn. destruct (Z.compare_spec (key x) (key y)); cbn; symmetry; lia. Qed.

(** *** Rounding *)
(** [y] is next to [v]: no number of the format lies between. *)
Definition faithful (v : Z) (y : spec_float) : Prop :=
  valid y /\ std_isnan y = false /\ (forall x, valid x -> std_isnan x = false -> key x <= v -> key x <= key y) /\ (forall x, valid x -> std_isnan x = false -> v <= key x -> key y <= key x).

Definition pack (sx : bool) (m e : Z) : spec_float :=
  match m with Z0 => S754_zero sx | Zpos p => if e <=? emax - prec then S754_finite sx p e else S754_infinity sx | Zneg _ => S754_nan end.

(** The integer that is rounded, its exponent: quotient [q] at exponent [E], rounded to [q] or, when something is lost, perhaps to [q + 1]. *)
Lemma round_parts sx m e : emin <= e ->
  let E := fexp (Zpos (digits2_pos m) + e) in
  exists q m' e', binary_round prec emax sx m e = pack sx m' e' /\ canon m' e' /\ emin <= E /\
    q * 2 ^ (E - emin) <= Zpos m * 2 ^ (e - emin) < (q + 1) * 2 ^ (E - emin) /\
    (emin < E -> 2 ^ (prec - 1) * 2 ^ (E - emin) <= Zpos m * 2 ^ (e - emin)) /\
    (m' * 2 ^ (e' - emin) = q * 2 ^ (E - emin) \/ m' * 2 ^ (e' - emin) = (q + 1) * 2 ^ (E - emin) /\ q * 2 ^ (E - emin) < Zpos m * 2 ^ (e - emin)).
Proof.
  intros He E. pose proof (digits2_bounds m) as B. set (d := Zpos (digits2_pos m)) in *. assert (D0 : 0 < d) by lia. unfold binary_round. fold d. fold E.
  assert (HE : emin <= E) by (unfold E, SpecFloat.fexp; lia).
  (* after the alignment: mantissa mz at exponent ez <= E, same value *)
  assert (AL : exists mz ez, shl_align m e E = (mz, ez) /\ emin <= ez <= E /\ Zpos mz * 2 ^ (ez - emin) = Zpos m * 2 ^ (e - emin) /\ Zpos (digits2_pos mz) + ez = d + e).
  { unfold shl_align. destruct (E - e) as [|p|p] eqn:EE.
    - exists m, e. split; [reflexivity|]. split; [lia|]. split; reflexivity.
    - exists m, e. split; [reflexivity|]. split; [lia|]. split; reflexivity.
    - exists (shift_pos p m), E. split; [reflexivity|]. split; [lia|]. assert (SP : Zpos (shift_pos p m) = Zpos m * 2 ^ Zpos p) by (rewrite shift_pos_correct; change (Z.pow_pos 2 p) with (2 ^ Zpos p); lia).
      rewrite SP. split; [rewrite <- Z.mul_assoc, <- Z.pow_add_r by lia; do 2 f_equal; lia|].
      enough (Zpos (digits2_pos (shift_pos p m)) = d + Zpos p) by lia. apply digits2_unique; [lia|]. rewrite SP. replace (d + Zpos p - 1) with (d - 1 + Zpos p) by lia. rewrite !Z.pow_add_r by lia. assert (0 < 2 ^ Zpos p) by (apply Z.pow_pos_nonneg; lia). nia. }
  destruct AL as (mz & ez & AL & HEz & VZ & DZ). rewrite AL. unfold binary_round_aux, shr_fexp. cbn [Zdigits2 shr_record_of_loc]. rewrite DZ. fold E.
  set (k := E - ez). assert (K0 : 0 <= k) by (unfold k; lia). set (mrs := shr (Build_shr_record (Zpos mz) false false) ez k).
  assert (SH : exists r, mrs = (r, E) /\ shifted (Zpos mz) k r).
  { unfold mrs, shr. destruct k as [|p|p] eqn:EK; [| |lia].
    - exists (Build_shr_record (Zpos mz) false false). split; [f_equal; unfold k in EK; lia|]. split; [cbn; now rewrite Z.div_1_r | cbn; rewrite Z.mod_1_r; tauto].
    - exists (SpecFloat.iter_pos shr_1 p (Build_shr_record (Zpos mz) false false)). split; [f_equal; unfold k in EK; lia|]. apply (iter_shr_inv (shifted (Zpos mz))) with (n := 0); [intros; apply shr_1_shifted; lia || assumption | lia|].
      split; [cbn; now rewrite Z.div_1_r | cbn; rewrite Z.mod_1_r; tauto]. }
  destruct SH as (r & -> & SM & SX). cbv beta iota. set (q := Zpos mz / 2 ^ k) in *. set (q' := round_nearest_even (shr_m r) (loc_of_shr_record r)).
  assert (P2 : 0 < 2 ^ k) by (apply Z.pow_pos_nonneg; lia). assert (PE : 2 ^ (E - emin) = 2 ^ k * 2 ^ (ez - emin)) by (rewrite <- Z.pow_add_r by (unfold k; lia); f_equal; unfold k; lia). assert (PZ : 0 < 2 ^ (ez - emin)) by (apply Z.pow_pos_nonneg; lia).
  assert (Q' : q' = q \/ q' = q + 1 /\ Zpos mz mod 2 ^ k <> 0).
  { unfold q'. rewrite SM. destruct r as [rm [|] [|]]; cbn [loc_of_shr_record round_nearest_even shr_r shr_s orb shr_m] in *.
    - right. split; [reflexivity|]. intros Z0. apply SX in Z0. discriminate.
    - destruct (Z.even q); [now left | right]. split; [reflexivity|]. intros Z0. apply SX in Z0. discriminate.
    - now left.
    - now left. }
  pose proof (Z.div_mod (Zpos mz) (2 ^ k) ltac:(lia)) as DM. fold q in DM. pose proof (Z.mod_pos_bound (Zpos mz) (2 ^ k) P2) as MB.
  (* size of the quotient *)
  assert (QB : 0 < q < 2 ^ prec /\ (emin < E -> 2 ^ (prec - 1) <= q)).
  { pose proof (digits2_bounds mz) as BZ. set (dz := Zpos (digits2_pos mz)) in *. assert (0 < dz) by lia.
    assert (DK : dz - k <= prec) by (unfold k, E, SpecFloat.fexp; lia).
    assert (HU : q < 2 ^ prec).
    { apply Z.div_lt_upper_bound; [lia|]. rewrite <- Z.pow_add_r by lia. apply Z.lt_le_trans with (2 ^ dz); [lia|]. apply Z.pow_le_mono_r; lia. }
    assert (HLo : emin < E -> 2 ^ (prec - 1) <= q).
    { intros L. apply Z.div_le_lower_bound; [lia|]. rewrite <- Z.pow_add_r by lia. apply Z.le_trans with (2 ^ (dz - 1)); [|lia]. apply Z.pow_le_mono_r; [lia|]. unfold k. unfold E, SpecFloat.fexp in *. lia. }
    split; [|exact HLo]. split; [|exact HU]. destruct (Z.eq_dec E emin) as [EQ|]; [|assert (0 < 2 ^ (prec - 1)) by (apply Z.pow_pos_nonneg; lia); specialize (HLo ltac:(lia)); lia].
    assert (k = 0) by (unfold k; lia). unfold q. replace k with 0 by lia. rewrite Z.div_1_r. lia. }
  destruct QB as ((Q0 & QU) & QL).
  (* the second normalisation *)
  assert (FIN : exists m' e', (let '(mrs'', e'') := shr (Build_shr_record q' false false) E (fexp (Zdigits2 q' + E) - E) in
      match shr_m mrs'' with Z0 => S754_zero sx | Zpos m => if Zle_bool e'' (emax - prec) then S754_finite sx m e'' else S754_infinity sx | _ => S754_nan end) = pack sx m' e' /\ canon m' e' /\ m' * 2 ^ (e' - emin) = q' * 2 ^ (E - emin)).
  { destruct q' as [|p'|p'] eqn:EQ'; [exfalso; lia| |exfalso; lia]. destruct (Z.eq_dec (Zpos p') (2 ^ prec)) as [FULL|NF].
    - assert (DD : Zpos (digits2_pos p') = prec + 1) by (apply digits2_unique; [lia|]; rewrite FULL; replace (prec + 1 - 1) with prec by lia; split; [lia|]; apply Z.pow_lt_mono_r; lia).
      cbn [Zdigits2]. rewrite DD. replace (fexp (prec + 1 + E) - E) with 1 by (unfold SpecFloat.fexp; lia). cbn [shr SpecFloat.iter_pos].
      exists (2 ^ (prec - 1)), (E + 1). assert (HALF : 2 ^ prec = 2 * 2 ^ (prec - 1)) by (rewrite <- Z.pow_succ_r by lia; f_equal; lia).
      assert (PP : 0 < 2 ^ (prec - 1)) by (apply Z.pow_pos_nonneg; lia).
      split; [|split; [split; [lia|split; [lia|lia]]|]].
      + destruct p' as [p|p|]; [exfalso; lia| |exfalso; lia]. cbn [shr_1 shr_m]. replace (2 ^ (prec - 1)) with (Zpos p) by lia. reflexivity.
      + rewrite FULL, HALF. replace (E + 1 - emin) with (Z.succ (E - emin)) by lia. rewrite Z.pow_succ_r by lia. lia.
    - assert (PB : Zpos p' < 2 ^ prec) by lia. pose proof (digits2_bounds p') as BP. cbn [Zdigits2]. set (d' := Zpos (digits2_pos p')) in *. assert (0 < d') by lia.
      assert (d' - 1 < prec) by (apply (Z.pow_lt_mono_r_iff 2); lia). assert (NS : fexp (d' + E) - E <= 0) by (unfold SpecFloat.fexp; lia).
      exists (Zpos p'), E. split; [|split; [split; [lia|split; [lia|]]|reflexivity]].
      + unfold shr. destruct (fexp (d' + E) - E); [reflexivity | lia | reflexivity].
      + intros L. specialize (QL L). lia. }
  destruct FIN as (m' & e' & FE & FC & FV). exists q, m', e'. split; [exact FE|]. split; [exact FC|]. split; [exact HE|].
  assert (VM : Zpos m * 2 ^ (e - emin) = (q * 2 ^ k + Zpos mz mod 2 ^ k) * 2 ^ (ez - emin)) by (rewrite <- VZ, DM at 1; f_equal; lia).
  rewrite VM, PE, FV, PE. set (u := 2 ^ (ez - emin)) in *. set (rem := Zpos mz mod 2 ^ k) in *.
  split; [split; [nia|]|].
  - apply Z.lt_le_trans with ((q * 2 ^ k + 2 ^ k) * u); [apply Z.mul_lt_mono_pos_r; lia|]. lia.
  - split.
    + intros L. specialize (QL L). nia.
    + destruct Q' as [->|(-> & NZ)]; [now left|right]. split; [reflexivity|]. rewrite Z.mul_assoc. apply Z.mul_lt_mono_pos_r; lia.
Qed.

(** Numbers of the format, and the next power of two in place of infinity. *)
Lemma canon_nearest mx ex q E V V' : canon mx ex -> emin <= E -> q * 2 ^ (E - emin) <= V < (q + 1) * 2 ^ (E - emin) -> (emin < E -> 2 ^ (prec - 1) * 2 ^ (E - emin) <= V) ->
  V' = q * 2 ^ (E - emin) \/ V' = (q + 1) * 2 ^ (E - emin) /\ q * 2 ^ (E - emin) < V ->
  let X := mx * 2 ^ (ex - emin) in (X <= V -> X <= V') /\ (V <= X -> V' <= X).
Proof.
  intros C HE HQ HN HV X. assert (U0 : 0 < 2 ^ (E - emin)) by (apply Z.pow_pos_nonneg; lia). destruct (Z.le_gt_cases E ex) as [L|L].
  - assert (XE : X = mx * 2 ^ (ex - E) * 2 ^ (E - emin)) by (unfold X; rewrite <- Z.mul_assoc, <- Z.pow_add_r by lia; do 2 f_equal; lia).
    set (n := mx * 2 ^ (ex - E)) in *. set (U := 2 ^ (E - emin)) in *. clearbody n U X. subst X. split; intros HX.
    + assert (n < q + 1) by nia. destruct HV as [->|(-> & _)]; nia.
    + destruct HV as [->|(-> & HS)]; [nia|]. assert (q < n) by nia. nia.
  - assert (EE : emin < E) by (destruct C; lia). specialize (HN EE).
    assert (CT : canon (2 ^ (prec - 1)) E) by (split; [lia|]; split; [split; [apply Z.pow_pos_nonneg; lia | apply Z.pow_lt_mono_r; lia] | lia]).
    pose proof (canon_lt _ _ _ _ C CT L) as LT. fold X in LT. set (U := 2 ^ (E - emin)) in *. set (h := 2 ^ (prec - 1)) in *. clearbody X U h. split; intros HX; [|lia].
    assert (h <= q) by nia. destruct HV as [->|(-> & _)]; nia.
Qed.

Definition signed (s : bool) (v : Z) : Z := if s then - v else v.
Lemma top_canon : canon (2 ^ (prec - 1)) (emax - prec + 1) /\ 2 ^ (prec - 1) * 2 ^ (emax - prec + 1 - emin) = top.
Proof.
  assert (SE : emin < emax - prec + 1) by (unfold SpecFloat.emin; lia). split.
  - split; [lia|]; split; [split; [apply Z.pow_pos_nonneg; lia | apply Z.pow_lt_mono_r; lia] | lia].
  - unfold top. rewrite <- Z.pow_add_r by lia. f_equal. lia.
Qed.
Lemma magnitude x : valid x -> std_isnan x = false -> key x = 0 \/ exists s m e, canon m e /\ key x = signed s (m * 2 ^ (e - emin)) /\ 0 < m * 2 ^ (e - emin) <= top.
Proof.
  intros V N. destruct x as [s|s| |s m e]; [now left| |discriminate|]; right; exists s.
  - destruct top_canon as (C & T). pose proof top_pos. eexists _, _. split; [exact C|]. rewrite T. split; [destruct s; reflexivity | lia].
  - destruct (valid_finite _ _ _ V) as (C & _ & B). exists (Zpos m), e. split; [exact C|]. split; [destruct s; reflexivity | lia].
Qed.
Lemma pack_key s m e : canon m e -> valid (pack s m e) /\ std_isnan (pack s m e) = false /\ key (pack s m e) = signed s (Z.min (m * 2 ^ (e - emin)) top).
Proof.
  intros C. pose proof (canon_top _ _ C) as CT. pose proof C as (_ & HM & _). destruct m as [|p|p]; [lia| |lia]. cbn [pack]. destruct (Z.leb_spec e (emax - prec)) as [L|L].
  - cbn [valid_binary std_isnan key]. rewrite bounded_canon. split; [split; assumption|]. split; [reflexivity|]. rewrite Z.min_l by lia. destruct s; reflexivity.
  - cbn [valid_binary std_isnan key]. split; [reflexivity|]. split; [reflexivity|]. rewrite Z.min_r; [destruct s; reflexivity|]. destruct (Z.le_gt_cases top (Zpos p * 2 ^ (e - emin))); lia.
Qed.

Lemma round_faithful s m e : emin <= e -> faithful (signed s (Zpos m * 2 ^ (e - emin))) (binary_round prec emax s m e).
Proof.
  intros He. destruct (round_parts s m e He) as (q & m' & e' & -> & C & HE & HQ & HN & HV). set (E := fexp _) in *. set (V := Zpos m * 2 ^ (e - emin)) in *. set (V' := m' * 2 ^ (e' - emin)) in *.
  destruct (pack_key s m' e' C) as (PV & PN & PK). fold V' in PK. assert (V0 : 0 < V) by (unfold V; apply Z.mul_pos_pos; [lia|]; apply Z.pow_pos_nonneg; lia).
  assert (V'0 : 0 < V') by (unfold V'; destruct C as (? & ? & _); apply Z.mul_pos_pos; [lia|]; apply Z.pow_pos_nonneg; lia). pose proof top_pos as TP.
  assert (NEAR : forall t mx ex, canon mx ex -> 0 < mx * 2 ^ (ex - emin) <= top -> (signed t (mx * 2 ^ (ex - emin)) <= signed s V -> signed t (mx * 2 ^ (ex - emin)) <= signed s (Z.min V' top)) /\ (signed s V <= signed t (mx * 2 ^ (ex - emin)) -> signed s (Z.min V' top) <= signed t (mx * 2 ^ (ex - emin)))).
  { intros t mx ex CX BX. destruct (canon_nearest mx ex q E V V' CX HE HQ HN HV) as (N1 & N2). destruct s, t; cbn [signed]; lia. }
  split; [exact PV|]. split; [exact PN|]. rewrite PK. split; intros x VX NX KX; (destruct (magnitude x VX NX) as [K0|(t & mx & ex & CX & K & BX)]; [rewrite K0 in *; destruct s; cbn [signed] in *; lia|]); rewrite K in *; now apply (NEAR t mx ex CX BX).
Qed.

Lemma zero_faithful s : faithful 0 (S754_zero s).
Proof. split; [reflexivity|]. split; [reflexivity|]. cbn [key]. split; intros; assumption. Qed.
Lemma normalize_faithful n e s : emin <= e -> faithful (n * 2 ^ (e - emin)) (binary_normalize prec emax n e s).
Proof.
  intros He. destruct n as [|p|p]; cbn [binary_normalize]; [apply zero_faithful | exact (round_faithful false p e He)|]. replace (Zneg p * 2 ^ (e - emin)) with (signed true (Zpos p * 2 ^ (e - emin))) by (cbn [signed]; lia). now apply round_faithful.
Qed.
Lemma faithful_self x : valid x -> std_isnan x = false -> faithful (key x) x.
Proof. intros V N. split; [exact V|]. split; [exact N|]. split; intros; assumption. Qed.

Lemma align_value m e ez : emin <= ez <= e -> Zpos (fst (shl_align m e ez)) * 2 ^ (ez - emin) = Zpos m * 2 ^ (e - emin).
Proof.
  intros H. unfold shl_align. destruct (ez - e) as [|p|p] eqn:EE; cbn [fst]; [do 2 f_equal; lia | lia|]. rewrite shift_pos_correct. change (Z.pow_pos 2 p) with (2 ^ Zpos p). rewrite (Z.mul_comm (2 ^ _)), <- Z.mul_assoc, <- Z.pow_add_r by lia. do 2 f_equal. lia.
Qed.
Lemma cond_signed s v : cond_Zopp s v = signed s v.
Proof. reflexivity. Qed.
Lemma key_signed s m e : key (S754_finite s m e) = signed s (Zpos m * 2 ^ (e - emin)).
Proof. reflexivity. Qed.

(** Sums and differences of finite numbers. *)
Lemma add_faithful x y : valid x -> valid y -> std_isfinite x = true -> std_isfinite y = true -> faithful (key x + key y) (SFadd prec emax x y).
Proof.
  intros VX VY FX FY. destruct x as [s1|s1| |s1 m1 e1]; try discriminate; destruct y as [s2|s2| |s2 m2 e2]; try discriminate; cbn [SFadd].
  - destruct (Bool.eqb s1 s2); apply zero_faithful.
  - exact (faithful_self _ VY eq_refl).
  - rewrite Z.add_0_r. exact (faithful_self _ VX eq_refl).
  - destruct (valid_finite _ _ _ VX) as ((E1 & _) & _). destruct (valid_finite _ _ _ VY) as ((E2 & _) & _).
    replace (key _ + key _) with ((cond_Zopp s1 (Zpos (fst (shl_align m1 e1 (Z.min e1 e2)))) + cond_Zopp s2 (Zpos (fst (shl_align m2 e2 (Z.min e1 e2))))) * 2 ^ (Z.min e1 e2 - emin)); [apply normalize_faithful; lia|].
    rewrite !key_signed, !cond_signed, <- (align_value m1 e1 (Z.min e1 e2)), <- (align_value m2 e2 (Z.min e1 e2)) by (split; [unfold SpecFloat.emin in *; lia | lia]). destruct s1, s2; cbn [signed cond_Zopp]; ring.
Qed.
Lemma valid_opp x : valid x -> valid (SFopp x).
Proof. destruct x; exact id. Qed.
Lemma key_opp x : key (SFopp x) = - key x.
Proof. destruct x as [s|s| |s m e]; try reflexivity; destruct s; cbn [SFopp key negb]; lia. Qed.
Lemma sub_add x y : valid x -> valid y -> SFsub prec emax x y = SFadd prec emax x (SFopp y).
Proof.
  intros _ _. destruct x as [s1|s1| |s1 m1 e1], y as [s2|s2| |s2 m2 e2]; try reflexivity. cbn [SFsub SFadd SFopp]. f_equal. destruct s2; cbn [cond_Zopp negb]; lia.
Qed.
Lemma sub_faithful x y : valid x -> valid y -> std_isfinite x = true -> std_isfinite y = true -> faithful (key x - key y) (SFsub prec emax x y).
Proof.
  intros VX VY FX FY. rewrite sub_add by assumption. replace (key x - key y) with (key x + key (SFopp y)) by (rewrite key_opp; lia). apply add_faithful; [assumption | now apply valid_opp | assumption | destruct y; try discriminate; reflexivity].
Qed.
Lemma faithful_exact v y x : faithful v y -> valid x -> std_isnan x = false -> key x = v -> key y = v.
Proof. intros (_ & _ & A & B) V N K. specialize (A x V N ltac:(lia)). specialize (B x V N ltac:(lia)). lia. Qed.

(** Infinities in sums. *)
Lemma valid_add x y : valid x -> valid y -> valid (SFadd prec emax x y).
Proof.
  intros VX VY. destruct (std_isfinite x) eqn:FX; [destruct (std_isfinite y) eqn:FY|].
  - apply (add_faithful x y VX VY FX FY).
  - destruct x, y; try discriminate; reflexivity.
  - destruct x, y; try discriminate; try reflexivity; cbn [SFadd]; destruct (Bool.eqb _ _); reflexivity.
Qed.
Lemma valid_sub x y : valid x -> valid y -> valid (SFsub prec emax x y).
Proof. intros VX VY. rewrite sub_add by assumption. apply valid_add; [assumption | now apply valid_opp]. Qed.
Lemma valid_abs x : valid x -> valid (SFabs x).
Proof. destruct x; exact id. Qed.
Lemma key_abs x : valid x -> key (SFabs x) = Z.abs (key x).
Proof.
  intros V. pose proof top_pos. destruct x as [s|s| |s m e]; try reflexivity; [destruct s; cbn [SFabs key]; lia|]. apply valid_finite in V. destruct s; cbn [SFabs key]; lia.
Qed.

(** Rounding is symmetric. *)
Lemma pack_opp s m e : pack (negb s) m e = SFopp (pack s m e) .
Proof. destruct m; cbn [pack]; try reflexivity. destruct (_ <=? _); reflexivity. Qed.
Lemma round_aux_opp s m e l : binary_round_aux prec emax (negb s) m e l = SFopp (binary_round_aux prec emax s m e l).
Proof. unfold binary_round_aux. destruct (shr_fexp prec emax m e l) as [mrs e']. destruct (shr_fexp _ _ _ _ _) as [mrs' e'']. exact (pack_opp s (shr_m mrs') e''). Qed.
Lemma round_opp s m e : binary_round prec emax (negb s) m e = SFopp (binary_round prec emax s m e).
Proof. unfold binary_round. destruct (shl_align _ _ _). apply round_aux_opp. Qed.
Lemma normalize_opp n e : n <> 0 -> binary_normalize prec emax (- n) e false = SFopp (binary_normalize prec emax n e false).
Proof. intros H. destruct n as [|p|p]; [contradiction| |]; cbn [Z.opp binary_normalize]; [exact (round_opp false p e) | exact (round_opp true p e)]. Qed.
End Format.
