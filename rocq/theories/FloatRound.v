(** The operations of SpecFloat are correctly rounded: to nearest, ties to even. Exact results are fractions of integers; no real numbers. *)
From Verif Require Import FloatSpec FloatModel FloatProofs.
Open Scope Z_scope.
(** lia without the boolean hypotheses, which make it slow *)
Local Ltac zlia := repeat match goal with H : @eq bool _ _ |- _ => clear H end; lia.

(** A positive number n lies at or after the multiple m * w of a step w, as told by the location. *)
Definition located (n m w : Z) (l : location) : Prop :=
  match l with
  | loc_Exact => n = m * w
  | loc_Inexact c => m * w < n < (m + 1) * w /\ (2 * n ?= (2 * m + 1) * w) = c
  end.
Definition rec_located (n w : Z) (r : shr_record) : Prop := 0 <= shr_m r /\ located n (shr_m r) w (loc_of_shr_record r).
Lemma located_lower n m w l : located n m w l -> m * w <= n.
Proof. destruct l; cbn; zlia. Qed.
Lemma located_upper n m w l : 0 < w -> located n m w l -> n < (m + 1) * w.
Proof. destruct l; cbn; zlia. Qed.
Lemma shr_1_located n w r : 0 < w -> rec_located n w r -> rec_located n (2 * w) (shr_1 r).
Proof.
  intros W (P & L). destruct r as [m rr s]. cbn [shr_m] in P. unfold rec_located.
  destruct m as [|p|p]; [| |zlia].
  - cbn [shr_1 shr_m]. split; [zlia|]. destruct rr, s; cbn [loc_of_shr_record located shr_m orb] in L |- *; try zlia;
      destruct L as (L1 & L2); (split; [zlia|]); apply Z.compare_lt_iff; zlia.
  - destruct p as [p|p|]; cbn [shr_1 shr_m]; (split; [zlia|]).
    + rewrite (Pos2Z.inj_xI p) in L. destruct rr, s; cbn [loc_of_shr_record located shr_m orb] in L |- *; try (destruct L as (L1 & L2)); (split; [zlia|]); first [apply Z.compare_gt_iff; zlia | apply Z.compare_eq_iff; zlia].
    + rewrite (Pos2Z.inj_xO p) in L. destruct rr, s; cbn [loc_of_shr_record located shr_m orb] in L |- *; try zlia; destruct L as (L1 & L2); (split; [zlia|]); apply Z.compare_lt_iff; zlia.
    + destruct rr, s; cbn [loc_of_shr_record located shr_m orb] in L |- *; try (destruct L as (L1 & L2)); (split; [zlia|]); first [apply Z.compare_gt_iff; zlia | apply Z.compare_eq_iff; zlia].
Qed.
Lemma iter_located n w r p : 0 < w -> rec_located n w r -> rec_located n (2 ^ Zpos p * w) (SpecFloat.iter_pos shr_1 p r).
Proof.
  intros W H. apply (iter_shr_inv (fun k r => rec_located n (2 ^ k * w) r)) with (n := 0) (p := p); [|zlia|].
  - intros k r' HK HR. rewrite Z.pow_add_r by zlia. replace (2 ^ k * 2 ^ 1 * w) with (2 * (2 ^ k * w)) by zlia. apply shr_1_located; [|exact HR]. assert (0 < 2 ^ k) by (apply Z.pow_pos_nonneg; zlia). zlia.
  - now rewrite Z.mul_1_l.
Qed.
Lemma record_of_loc n m w l : 0 <= m -> located n m w l -> rec_located n w (shr_record_of_loc m l).
Proof. intros P L. split; destruct l as [|[]]; assumption. Qed.

(** Rounding to a multiple of the step *)
Lemma nearest_multiple n q w l j : 0 < w -> located n q w l -> let q' := round_nearest_even q l in
  (q' = q \/ q' = q + 1) /\ Z.abs (q' * w - n) <= Z.abs (j * w - n) /\ (j <> q' -> Z.abs (q' * w - n) = Z.abs (j * w - n) -> Z.even q' = true).
Proof.
  intros W L q'. destruct l as [|c]; cbn [located] in L.
  - assert (E : q' = q) by reflexivity. rewrite E. split; [now left|]. subst n. split; [zlia|]. intros J T. exfalso. rewrite Z.sub_diag in T. cbn [Z.abs] in T. assert (j * w = q * w) by zlia. apply J. nia.
  - destruct L as (L & C). assert (J : j <= q \/ q + 1 <= j) by zlia.
    assert (D : (j * w - n <= q * w - n /\ (j <> q -> j * w < q * w)) \/ ((q + 1) * w - n <= j * w - n /\ (j <> q + 1 -> (q + 1) * w < j * w))) by (destruct J; [left | right]; split; nia).
    destruct c; cbn [round_nearest_even] in q'.
    + apply Z.compare_eq_iff in C. destruct (Z.even q) eqn:EV; subst q'.
      * split; [now left|]. split; [zlia|]. intros _ _. exact EV.
      * split; [now right|]. split; [zlia|]. intros _ _. rewrite Z.even_add, EV. reflexivity.
    + change (2 * n < (2 * q + 1) * w) in C. subst q'. split; [now left|]. split; [zlia|]. intros N T. exfalso. destruct D as [(D1 & D2)|(D1 & D2)]; [specialize (D2 N); zlia | zlia].
    + apply Z.compare_gt_iff in C. subst q'. split; [now right|]. split; [zlia|]. intros N T. exfalso. destruct D as [(D1 & D2)|(D1 & D2)]; [zlia | specialize (D2 N); zlia].
Qed.

Section Format.
Variables prec emax : Z.
Hypothesis Hprec : 1 < prec.
Hypothesis Hemax : prec < emax.
Local Notation emin := (emin prec emax).
Local Notation fexp := (fexp prec emax).
Local Notation valid x := (valid_binary prec emax x = true).
Local Notation number x := (std_isnan x = false).
Local Notation finite x := (std_isfinite x = true).
Local Notation top := (top prec emax).
Local Notation key := (key prec emax).
Local Notation canon := (canon prec emax).
Local Notation pack := (pack prec emax).

(** ** Correct rounding *)
Definition even_number (x : spec_float) : bool := match x with S754_finite _ m _ => Z.even (Zpos m) | _ => true end.
(** [y] is the number nearest to n / d (in units of the smallest number), the even one if there are two; infinity counts as 2^emax. *)
Definition rounded (n d : Z) (y : spec_float) : Prop :=
  valid y /\ number y /\
  (forall x, valid x -> number x -> Z.abs (key y * d - n) <= Z.abs (key x * d - n)) /\
  (forall x, valid x -> number x -> key x <> key y -> Z.abs (key y * d - n) = Z.abs (key x * d - n) -> even_number y = true).

(** The second normalisation, after rounding. *)
Lemma renormalise sx q E : 0 <= q <= 2 ^ prec -> emin <= E -> (emin < E -> 2 ^ (prec - 1) <= q) ->
  exists m e, (let '(mrs, e'') := shr_fexp prec emax q E loc_Exact in
      match shr_m mrs with Z0 => S754_zero sx | Zpos m => if Zle_bool e'' (emax - prec) then S754_finite sx m e'' else S754_infinity sx | _ => S754_nan end) = pack sx m e /\
    (q = 0 /\ m = 0 \/ canon m e) /\ m * 2 ^ (e - emin) = q * 2 ^ (E - emin) /\ (Z.even q = true -> Z.even m = true).
Proof.
  intros Q HE QL. unfold shr_fexp. cbn [shr_record_of_loc]. destruct q as [|p|p]; [| |zlia].
  - destruct (Z.eq_dec E emin) as [->|]; [|assert (0 < 2 ^ (prec - 1)) by (apply Z.pow_pos_nonneg; zlia); zlia].
    exists 0, emin. cbn [Zdigits2]. replace (fexp (0 + emin) - emin) with 0 by (unfold SpecFloat.fexp; zlia). cbn [shr shr_m pack].
    split; [reflexivity|]. split; [left; split; reflexivity|]. split; [reflexivity | trivial].
  - destruct (Z.eq_dec (Zpos p) (2 ^ prec)) as [FULL|NF].
    + assert (DD : Zpos (digits2_pos p) = prec + 1) by (apply digits2_unique; [zlia|]; rewrite FULL; replace (prec + 1 - 1) with prec by zlia; split; [zlia|]; apply Z.pow_lt_mono_r; zlia).
      cbn [Zdigits2]. rewrite DD. replace (fexp (prec + 1 + E) - E) with 1 by (unfold SpecFloat.fexp; zlia). cbn [shr SpecFloat.iter_pos].
      exists (2 ^ (prec - 1)), (E + 1). assert (HALF : 2 ^ prec = 2 * 2 ^ (prec - 1)) by (rewrite <- Z.pow_succ_r by zlia; f_equal; zlia).
      assert (PP : 0 < 2 ^ (prec - 1)) by (apply Z.pow_pos_nonneg; zlia). split; [|split; [right; split; [zlia|split; [zlia|zlia]]|split]].
      * destruct p as [p|p|]; [exfalso; zlia| |exfalso; zlia]. cbn [shr_1 shr_m]. replace (2 ^ (prec - 1)) with (Zpos p) by zlia. reflexivity.
      * rewrite FULL, HALF. replace (E + 1 - emin) with (Z.succ (E - emin)) by zlia. rewrite Z.pow_succ_r by zlia. zlia.
      * intros _. rewrite Z.even_pow by zlia. reflexivity.
    + assert (PB : Zpos p < 2 ^ prec) by zlia. pose proof (digits2_bounds p) as BP. cbn [Zdigits2]. set (d' := Zpos (digits2_pos p)) in *. assert (0 < d') by zlia.
      assert (d' - 1 < prec) by (apply (Z.pow_lt_mono_r_iff 2); zlia). assert (NS : fexp (d' + E) - E <= 0) by (unfold SpecFloat.fexp; zlia).
      exists (Zpos p), E. split; [|split; [right; split; [zlia|split; [zlia|exact QL]]|split; [reflexivity|trivial]]].
      unfold shr. destruct (fexp (d' + E) - E); [reflexivity | zlia | reflexivity].
Qed.

(** From distances between magnitudes to distances between numbers of both signs *)
Definition canonical (X : Z) : Prop := X = 0 \/ (exists mx ex, canon mx ex /\ X = mx * 2 ^ (ex - emin)).
Lemma nearest_rounded s V D n y (EVEN : Prop) : 0 < D -> 0 < n -> 0 <= V -> valid y -> number y -> key y = signed s (Z.min V top) ->
  (forall X, canonical X -> Z.abs (V * D - n) <= Z.abs (X * D - n) /\ (X <> V -> Z.abs (V * D - n) = Z.abs (X * D - n) -> EVEN)) ->
  (V <= top -> EVEN -> even_number y = true) -> (top < V -> even_number y = true) -> rounded (signed s n) D y.
Proof.
  intros PD Hn V0 K1 K2 K3 NEAR K4 K5. split; [exact K1|]. split; [exact K2|]. rewrite K3. clear K1 K2 K3.
  assert (TOP : Z.abs (V * D - n) <= Z.abs (top * D - n)).
  { apply NEAR. right. destruct (top_canon prec emax Hprec Hemax) as (C & T). eexists _, _. split; [exact C|]. symmetry. exact T. }
  pose proof (top_pos prec emax Hprec Hemax) as TP.
  assert (ALL : forall x, valid x -> number x -> exists t X, key x = signed t X /\ 0 <= X <= top /\ canonical X).
  { intros x VX NX. destruct (magnitude prec emax Hprec Hemax x VX NX) as [->|(t & mx & ex & C & -> & R)].
    - exists false, 0. split; [reflexivity|]. split; [zlia|]. now left.
    - exists t, (mx * 2 ^ (ex - emin)). split; [reflexivity|]. split; [zlia|]. right. now exists mx, ex. }
  generalize dependent top. intros T K4 K5 TOP TP ALL.
  assert (ORD : forall A B, A <= B -> A * D <= B * D) by (intros; apply Z.mul_le_mono_nonneg_r; zlia). assert (SORD : forall A B, A < B -> A * D < B * D) by (intros; apply Z.mul_lt_mono_pos_r; assumption).
  assert (OVER : T < V -> T * D < n) by (intros HV; specialize (SORD _ _ HV); zlia).
  assert (SG : forall A, Z.abs (signed s A * D - signed s n) = Z.abs (A * D - n)) by (intros A; destruct s; cbn [signed]; zlia).
  assert (NG : forall A t, t <> s -> Z.abs (signed t A * D - signed s n) = Z.abs (- A * D - n)) by (intros A t NE; destruct s, t; cbn [signed]; try congruence; zlia).
  destruct (NEAR 0 (or_introl eq_refl)) as (Z1 & Z2).
  assert (MIN : forall X, X <= T -> Z.abs (V * D - n) <= Z.abs (X * D - n) -> Z.abs (Z.min V T * D - n) <= Z.abs (X * D - n)).
  { intros X B N. destruct (Z.min_spec V T) as [(? & ->)|(H & ->)]; [exact N|]. apply Z.le_lteq in H. destruct H as [H | ->]; [|exact N]. specialize (OVER H). specialize (ORD _ _ B). zlia. }
  split.
  - intros x VX NX. destruct (ALL x VX NX) as (t & X & -> & B & HX). rewrite SG. destruct (NEAR X HX) as (N1 & _).
    destruct (Bool.bool_dec t s) as [->|NE]; [rewrite SG; apply MIN; [zlia | exact N1]|]. rewrite NG by exact NE. apply Z.le_trans with (Z.abs (0 * D - n)); [apply MIN; [zlia | exact Z1]|].
    assert (0 * D <= X * D) by (apply ORD; zlia). zlia.
  - intros x VX NX NK EQ. destruct (ALL x VX NX) as (t & X & KX & B & HX). rewrite KX in NK, EQ. rewrite SG in EQ. destruct (Z.le_gt_cases V T) as [LE|GT]; [|now apply K5]. rewrite Z.min_l in * by exact LE. apply K4; [exact LE|].
    destruct (Bool.bool_dec t s) as [->|NE].
    + rewrite SG in EQ. apply (NEAR X HX); [|exact EQ]. intros ->. now apply NK.
    + rewrite NG in EQ by exact NE. destruct (Z.eq_dec X 0) as [->|NZ].
      * apply Z2; [|replace (-0) with 0 in EQ by zlia; exact EQ]. intros <-. apply NK. now destruct s, t.
      * exfalso. assert (0 * D < X * D) by (apply SORD; zlia). zlia.
Qed.

Lemma round_aux_rounded s m e l n d b : 0 <= m -> b <= e -> b <= emin -> 0 < d -> 0 < n -> located n m (2 ^ (e - b) * d) l -> e <= fexp (Zdigits2 m + e) ->
  rounded (signed s n) (2 ^ (emin - b) * d) (binary_round_aux prec emax s m e l).
Proof.
  intros Hm Hbe Hb Hd Hn L HF. unfold binary_round_aux, shr_fexp at 1. set (E := fexp (Zdigits2 m + e)) in *. set (k := E - e).
  assert (HE : emin <= E) by (unfold E, SpecFloat.fexp; zlia). assert (P0 : 0 < 2 ^ (e - b)) by (apply Z.pow_pos_nonneg; zlia).
  assert (SH : exists r, shr (shr_record_of_loc m l) e k = (r, E) /\ rec_located n (2 ^ (E - b) * d) r).
  { pose proof (record_of_loc n m _ l Hm L) as RL. unfold shr. destruct k as [|p|p] eqn:EK; unfold k in EK; [| |zlia].
    - exists (shr_record_of_loc m l). split; [f_equal; zlia|]. replace (E - b) with (e - b) by zlia. exact RL.
    - exists (SpecFloat.iter_pos shr_1 p (shr_record_of_loc m l)). split; [f_equal; zlia|]. replace (E - b) with (Zpos p + (e - b)) by zlia. rewrite Z.pow_add_r, <- Z.mul_assoc by zlia. apply iter_located; [nia|exact RL]. }
  destruct SH as (r & -> & R0 & RL). cbv beta iota. set (q := shr_m r) in *. set (lq := loc_of_shr_record r) in *. set (q' := round_nearest_even q lq).
  set (W := 2 ^ (E - b) * d) in *. assert (PW : 0 < W) by (unfold W; assert (0 < 2 ^ (E - b)) by (apply Z.pow_pos_nonneg; zlia); nia).
  set (D := 2 ^ (emin - b) * d). assert (PD : 0 < D) by (unfold D; assert (0 < 2 ^ (emin - b)) by (apply Z.pow_pos_nonneg; zlia); nia).
  assert (WD : W = 2 ^ (E - emin) * D) by (unfold W, D; rewrite Z.mul_assoc, <- Z.pow_add_r by zlia; do 2 f_equal; zlia).
  assert (PH : 0 < 2 ^ (prec - 1)) by (apply Z.pow_pos_nonneg; zlia). assert (HALF : 2 ^ prec = 2 * 2 ^ (prec - 1)) by (rewrite <- Z.pow_succ_r by zlia; f_equal; zlia).
  pose proof (located_lower _ _ _ _ RL) as LQ. pose proof (located_upper _ _ _ _ PW RL) as UQ.
  assert (PWe : 0 < 2 ^ (e - b) * d) by nia. pose proof (located_lower _ _ _ _ L) as LM. pose proof (located_upper _ _ _ _ PWe L) as UM.
  (* size of the quotient *)
  assert (QB : q < 2 ^ prec /\ (emin < E -> 2 ^ (prec - 1) <= q)).
  { assert (DB : m + 1 <= 2 ^ Zdigits2 m /\ 0 <= Zdigits2 m /\ (0 < m -> 2 ^ (Zdigits2 m - 1) <= m)).
    { destruct m as [|p|p]; cbn [Zdigits2]; [cbn; zlia| |zlia]. pose proof (digits2_bounds p). zlia. }
    set (dm := Zdigits2 m) in *. destruct DB as (DB1 & DB0 & DB2). split.
    - assert (X : q * W < 2 ^ prec * W).
      { apply Z.le_lt_trans with n; [exact LQ|]. apply Z.lt_le_trans with (2 ^ dm * (2 ^ (e - b) * d)); [nia|]. unfold W. rewrite !Z.mul_assoc, <- !Z.pow_add_r by zlia.
        apply Z.mul_le_mono_nonneg_r; [zlia|]. apply Z.pow_le_mono_r; [zlia|]. unfold E, SpecFloat.fexp. zlia. }
      nia.
    - intros LE. assert (EE : E = dm + e - prec) by (unfold E, SpecFloat.fexp in *; zlia). assert (M0 : 0 < m) by (destruct m as [|p|p]; [|zlia|zlia]; cbn [Zdigits2] in dm; unfold dm in EE; zlia).
      specialize (DB2 M0). assert (D1 : 1 <= dm) by (unfold dm; destruct m; cbn [Zdigits2]; zlia).
      assert (X : 2 ^ (prec - 1) * W < (q + 1) * W).
      { apply Z.le_lt_trans with n; [|exact UQ]. apply Z.le_trans with (2 ^ (dm - 1) * (2 ^ (e - b) * d)); [|nia]. unfold W. rewrite !Z.mul_assoc, <- !Z.pow_add_r by zlia.
        apply Z.mul_le_mono_nonneg_r; [zlia|]. apply Z.pow_le_mono_r; zlia. }
      nia. }
  destruct QB as (QU & QL).
  destruct (nearest_multiple n q W lq 0 PW RL) as (Q' & _). fold q' in Q'.
  destruct (renormalise s q' E) as (m' & e' & -> & CN & VV & EV); [zlia | exact HE | intros; specialize (QL ltac:(assumption)); zlia|].
  (* distances *)
  set (V := q' * 2 ^ (E - emin)) in *. assert (VW : V * D = q' * W) by (unfold V; rewrite WD; zlia).
  assert (NEAR : forall X, canonical X -> Z.abs (V * D - n) <= Z.abs (X * D - n) /\ (X <> V -> Z.abs (V * D - n) = Z.abs (X * D - n) -> Z.even q' = true)).
  { intros X HX. rewrite VW. assert (J : (exists j, X = j * 2 ^ (E - emin)) \/ (X < 2 ^ (prec - 1) * 2 ^ (E - emin) /\ emin < E)).
    { destruct HX as [->|(mx & ex & C & ->)]; [left; now exists 0|]. destruct (Z.le_gt_cases E ex) as [LE|GT].
      - left. exists (mx * 2 ^ (ex - E)). rewrite <- Z.mul_assoc, <- Z.pow_add_r by zlia. do 2 f_equal. zlia.
      - right. assert (LE : emin < E) by (destruct C; zlia). split; [|exact LE]. apply (canon_lt prec emax Hprec); [exact C| |exact GT]. split; [zlia|]. split; [split; [zlia|apply Z.pow_lt_mono_r; zlia]|zlia]. }
    destruct J as [(j & ->)|(LT & LE)].
    - destruct (nearest_multiple n q W lq j PW RL) as (_ & N1 & N2). fold q' in N1, N2. replace (j * 2 ^ (E - emin) * D) with (j * W) by (rewrite WD; zlia). split; [exact N1|]. intros NE. apply N2. intros ->. apply NE. reflexivity.
    - specialize (QL LE). destruct (nearest_multiple n q W lq (2 ^ (prec - 1)) PW RL) as (_ & N1 & _). fold q' in N1.
      assert (XD : X * D < 2 ^ (prec - 1) * W) by (rewrite WD, Z.mul_assoc; apply Z.mul_lt_mono_pos_r; assumption). assert (2 ^ (prec - 1) * W <= n) by (apply Z.le_trans with (q * W); [apply Z.mul_le_mono_nonneg_r; [zlia | exact QL] | exact LQ]). split; [zlia|]. intros _ T. exfalso. zlia. }
  assert (KEY : valid (pack s m' e') /\ number (pack s m' e') /\ key (pack s m' e') = signed s (Z.min V top) /\ (V <= top -> Z.even q' = true -> even_number (pack s m' e') = true) /\ (top < V -> even_number (pack s m' e') = true)).
  { pose proof (top_pos prec emax Hprec Hemax) as TP. destruct CN as [(Z0 & ->)|C].
    - cbn [FloatProofs.pack]. split; [reflexivity|]. split; [reflexivity|]. split; [cbn [FloatSpec.key]; unfold V; rewrite Z0, Z.mul_0_l, Z.min_l by zlia; destruct s; reflexivity|]. split; reflexivity.
    - destruct (pack_key prec emax Hprec Hemax s m' e' C) as (A1 & A2 & A3). rewrite VV in A3. fold V in A3. split; [exact A1|]. split; [exact A2|]. split; [exact A3|]. split.
      + intros _ X. specialize (EV X). destruct m' as [|p|p]; cbn [FloatProofs.pack]; [reflexivity| |reflexivity]. destruct (e' <=? emax - prec); [exact EV | reflexivity].
      + intros T. destruct m' as [|p|p]; cbn [FloatProofs.pack]; [reflexivity| |reflexivity]. destruct (Z.leb_spec e' (emax - prec)) as [LE|]; [|reflexivity].
        apply (canon_top prec emax Hprec Hemax _ _ C) in LE. rewrite VV in LE. fold V in LE. zlia. }
  destruct KEY as (K1 & K2 & K3 & K4 & K5). apply (nearest_rounded s V D n _ (Z.even q' = true)); try assumption. unfold V. apply Z.mul_nonneg_nonneg; [zlia | apply Z.pow_nonneg; zlia].
Qed.

(** ** The operations *)
Lemma rounded_scale n d n' d' y : 0 < d -> 0 < d' -> n * d' = n' * d -> rounded n d y -> rounded n' d' y.
Proof.
  intros D D' E (V & N & A & B). split; [exact V|]. split; [exact N|].
  assert (S : forall k, Z.abs (k * d' - n') * d = Z.abs (k * d - n) * d').
  { intros k. rewrite <- (Z.abs_eq d) at 1 by zlia. rewrite <- (Z.abs_eq d') at 2 by zlia. rewrite <- !Z.abs_mul. f_equal. zlia. }
  split.
  - intros x VX NX. apply (Zmult_le_reg_r _ _ d); [zlia|]. rewrite !S. apply Z.mul_le_mono_nonneg_r; [zlia|]. now apply A.
  - intros x VX NX NE T. apply (B x VX NX NE). apply (Z.mul_reg_r _ _ d'); [zlia|]. now rewrite <- !S, T.
Qed.
Lemma zero_rounded d s : rounded 0 d (S754_zero s).
Proof. split; [reflexivity|]. split; [reflexivity|]. cbn [FloatSpec.key]. split; [intros; zlia | reflexivity]. Qed.
Lemma self_rounded x d n : valid x -> number x -> 0 < d -> n = key x * d -> rounded n d x.
Proof. intros V N D ->. split; [exact V|]. split; [exact N|]. rewrite Z.sub_diag. split; [intros; cbn [Z.abs]; zlia|]. intros z VZ NZ NE T. exfalso. apply NE. cbn [Z.abs] in T. assert (E : key z * d = key x * d) by zlia. apply Z.mul_reg_r in E; zlia. Qed.
Lemma emin_neg : emin < 0.
Proof. unfold SpecFloat.emin. zlia. Qed.
Lemma fexp_mono a b : a <= b -> fexp a <= fexp b.
Proof. unfold SpecFloat.fexp. zlia. Qed.
Lemma digits_shift p m : Zpos (digits2_pos (shift_pos p m)) = Zpos (digits2_pos m) + Zpos p.
Proof.
  pose proof (digits2_bounds m) as B. apply digits2_unique; [zlia|]. rewrite shift_pos_correct. change (Z.pow_pos 2 p) with (2 ^ Zpos p).
  replace (Zpos (digits2_pos m) + Zpos p - 1) with (Zpos p + (Zpos (digits2_pos m) - 1)) by zlia. rewrite (Z.add_comm (Zpos (digits2_pos m))), !Z.pow_add_r by zlia.
  assert (0 < 2 ^ Zpos p) by (apply Z.pow_pos_nonneg; zlia). split; [apply Z.mul_le_mono_nonneg_l; zlia | apply Z.mul_lt_mono_pos_l; zlia].
Qed.
Lemma round_rounded s m e b : b <= e -> b <= emin -> rounded (signed s (Zpos m * 2 ^ (e - b))) (2 ^ (emin - b)) (binary_round prec emax s m e).
Proof.
  intros He Hb. unfold binary_round. rewrite <- (Z.mul_1_r (2 ^ (emin - b))). assert (FE : emin <= fexp (Zpos (digits2_pos m) + e)) by (unfold SpecFloat.fexp; zlia).
  assert (PP : 0 < Zpos m * 2 ^ (e - b)) by (apply Z.mul_pos_pos; [zlia | apply Z.pow_pos_nonneg; zlia]).
  unfold shl_align. destruct (fexp (Zpos (digits2_pos m) + e) - e) as [|p|p] eqn:K.
  - apply round_aux_rounded; try zlia; cbn [located Zdigits2]; zlia.
  - apply round_aux_rounded; try zlia; cbn [located Zdigits2]; zlia.
  - apply round_aux_rounded; try zlia.
    + cbn [located]. rewrite shift_pos_correct. change (Z.pow_pos 2 p) with (2 ^ Zpos p). rewrite Z.mul_1_r, (Z.mul_comm (2 ^ Zpos p)), <- Z.mul_assoc, <- Z.pow_add_r by zlia. do 2 f_equal. zlia.
    + cbn [Zdigits2]. rewrite digits_shift. apply Z.eq_le_incl. f_equal. zlia.
Qed.
Lemma normalize_rounded n e b s : b <= e -> b <= emin -> rounded (n * 2 ^ (e - b)) (2 ^ (emin - b)) (binary_normalize prec emax n e s).
Proof.
  intros He Hb. destruct n as [|p|p]; cbn [binary_normalize]; [apply zero_rounded | now apply (round_rounded false)|].
  replace (Zneg p * 2 ^ (e - b)) with (signed true (Zpos p * 2 ^ (e - b))) by (cbn [signed]; zlia). now apply round_rounded.
Qed.
Lemma of_Z_rounded n : rounded (n * 2 ^ (- emin)) 1 (of_Z prec emax n).
Proof. pose proof emin_neg. pose proof (normalize_rounded n 0 emin false ltac:(zlia) ltac:(zlia)) as R. rewrite Z.sub_diag in R. exact R. Qed.

Lemma add_rounded x y : valid x -> valid y -> finite x -> finite y -> rounded (key x + key y) 1 (SFadd prec emax x y).
Proof.
  intros VX VY FX FY. destruct x as [s1|s1| |s1 m1 e1]; try discriminate; destruct y as [s2|s2| |s2 m2 e2]; try discriminate; cbn [SFadd].
  - destruct (Bool.eqb s1 s2); apply zero_rounded.
  - apply self_rounded; [exact VY | reflexivity | zlia|]. cbn [FloatSpec.key]. zlia.
  - apply self_rounded; [exact VX | reflexivity | zlia|]. cbn [FloatSpec.key]. zlia.
  - destruct (valid_finite _ _ Hprec Hemax _ _ _ VX) as ((E1 & _) & _). destruct (valid_finite _ _ Hprec Hemax _ _ _ VY) as ((E2 & _) & _).
    replace (key _ + key _) with ((cond_Zopp s1 (Zpos (fst (shl_align m1 e1 (Z.min e1 e2)))) + cond_Zopp s2 (Zpos (fst (shl_align m2 e2 (Z.min e1 e2))))) * 2 ^ (Z.min e1 e2 - emin)).
    + pose proof (normalize_rounded (cond_Zopp s1 (Zpos (fst (shl_align m1 e1 (Z.min e1 e2)))) + cond_Zopp s2 (Zpos (fst (shl_align m2 e2 (Z.min e1 e2))))) (Z.min e1 e2) emin false ltac:(zlia) ltac:(zlia)) as R. rewrite Z.sub_diag in R. exact R.
    + rewrite !(key_signed prec emax), !cond_signed, <- (align_value prec emax m1 e1 (Z.min e1 e2)), <- (align_value prec emax m2 e2 (Z.min e1 e2)) by (split; [unfold SpecFloat.emin in *; zlia | zlia]). destruct s1, s2; cbn [signed cond_Zopp]; ring.
Qed.
Lemma sub_rounded x y : valid x -> valid y -> finite x -> finite y -> rounded (key x - key y) 1 (SFsub prec emax x y).
Proof.
  intros VX VY FX FY. rewrite (sub_add prec emax) by assumption. replace (key x - key y) with (key x + key (SFopp y)) by (rewrite key_opp; zlia). apply add_rounded; [assumption | now apply valid_opp | assumption | destruct y; try discriminate; reflexivity].
Qed.

Lemma signed_mul s t a b : signed s a * signed t b = signed (xorb s t) (a * b).
Proof. destruct s, t; cbn [signed xorb]; ring. Qed.
Lemma mul_rounded x y : valid x -> valid y -> finite x -> finite y -> rounded (key x * key y) (2 ^ (- emin)) (SFmul prec emax x y).
Proof.
  intros VX VY FX FY. destruct x as [s1|s1| |s1 m1 e1]; try discriminate; destruct y as [s2|s2| |s2 m2 e2]; try discriminate; cbn [SFmul];
    try (rewrite ?Z.mul_0_r, ?Z.mul_0_l; cbn [FloatSpec.key]; rewrite ?Z.mul_0_r; apply zero_rounded).
  destruct (valid_finite _ _ Hprec Hemax _ _ _ VX) as ((E1 & B1 & N1) & _). destruct (valid_finite _ _ Hprec Hemax _ _ _ VY) as ((E2 & B2 & N2) & _). pose proof emin_neg as EN.
  rewrite !(key_signed prec emax), signed_mul. replace (2 ^ (- emin)) with (2 ^ (emin - 2 * emin) * 1) by (rewrite Z.mul_1_r; f_equal; zlia).
  assert (V : Zpos m1 * 2 ^ (e1 - emin) * (Zpos m2 * 2 ^ (e2 - emin)) = Zpos (m1 * m2) * 2 ^ (e1 + e2 - 2 * emin)).
  { replace (e1 + e2 - 2 * emin) with ((e1 - emin) + (e2 - emin)) by zlia. rewrite Z.pow_add_r by zlia. rewrite Pos2Z.inj_mul. ring. }
  rewrite V. apply round_aux_rounded; try zlia.
  - cbn [located]. zlia.
  - cbn [Zdigits2]. destruct (Z.eq_dec e1 emin) as [X1|X1]; destruct (Z.eq_dec e2 emin) as [X2|X2]; [unfold SpecFloat.fexp; zlia| | |];
    (assert (P : prec <= Zpos (digits2_pos (m1 * m2))); [|unfold SpecFloat.fexp; zlia]);
    pose proof (digits2_bounds (m1 * m2)) as BB; rewrite Pos2Z.inj_mul in BB; apply Z.lt_pred_le, (Z.pow_lt_mono_r_iff 2); try zlia; change (Z.pred prec) with (prec - 1); assert (PH : 0 < 2 ^ (prec - 1)) by (apply Z.pow_pos_nonneg; zlia).
    + specialize (N2 ltac:(zlia)). apply Z.le_lt_trans with (Zpos m1 * Zpos m2); [|zlia]. nia.
    + specialize (N1 ltac:(zlia)). apply Z.le_lt_trans with (Zpos m1 * Zpos m2); [|zlia]. nia.
    + specialize (N1 ltac:(zlia)). apply Z.le_lt_trans with (Zpos m1 * Zpos m2); [|zlia]. nia.
Qed.

Lemma new_location_located b q r : 0 < b -> 0 <= r < b -> located (q * b + r) q b (new_location b r).
Proof.
  intros B R. unfold new_location. destruct (Z.even b) eqn:EV.
  - unfold new_location_even. destruct (Zeq_bool r 0) eqn:Z0; [apply Zeq_bool_eq in Z0; cbn [located]; zlia|]. apply Zeq_bool_neq in Z0. cbn [located]. split; [zlia|].
    destruct (Z.compare_spec (2 * r) b); [apply Z.compare_eq_iff | apply Z.compare_lt_iff | apply Z.compare_gt_iff]; zlia.
  - unfold new_location_odd. destruct (Zeq_bool r 0) eqn:Z0; [apply Zeq_bool_eq in Z0; cbn [located]; zlia|]. apply Zeq_bool_neq in Z0. cbn [located]. split; [zlia|].
    assert (O : exists k, b = 2 * k + 1) by (apply Z.odd_spec; rewrite <- Z.negb_even, EV; reflexivity). destruct O as (k & O).
    destruct (Z.compare_spec (2 * r + 1) b); [apply Z.compare_lt_iff | apply Z.compare_lt_iff | apply Z.compare_gt_iff]; zlia.
Qed.
Lemma located_scale n m w l k : 0 < k -> located n m w l -> located (n * k) m (w * k) l.
Proof.
  intros K. destruct l as [|c]; cbn [located]; [intros ->; ring|]. intros (A & C). split; [nia|]. rewrite <- C, !Z.mul_assoc. clear C.
  destruct (Z.compare_spec (2 * n) ((2 * m + 1) * w)); [apply Z.compare_eq_iff | apply Z.compare_lt_iff | apply Z.compare_gt_iff]; nia.
Qed.
Lemma div_rounded x y : valid x -> valid y -> finite x -> finite y -> key y <> 0 -> rounded (signed (key y <? 0) (key x * 2 ^ (- emin))) (Z.abs (key y)) (SFdiv prec emax x y).
Proof.
  intros VX VY FX FY NZ. destruct y as [s2|s2| |s2 m2 e2]; try discriminate; [contradiction|]. pose proof emin_neg as EN. destruct x as [s1|s1| |s1 m1 e1]; try discriminate; cbn [SFdiv].
  { change (key (S754_zero s1)) with 0. rewrite Z.mul_0_l. replace (signed _ 0) with 0 by (now destruct (_ <? 0)). apply zero_rounded. }
  destruct (valid_finite _ _ Hprec Hemax _ _ _ VX) as ((E1 & B1 & N1) & _). destruct (valid_finite _ _ Hprec Hemax _ _ _ VY) as ((E2 & B2 & N2) & _ & K2 & _).
  unfold SFdiv_core_binary. set (d1 := Zdigits2 (Zpos m1)). set (d2 := Zdigits2 (Zpos m2)). set (e' := Z.min (fexp (d1 + e1 - (d2 + e2))) (e1 - e2)). set (s := e1 - e2 - e').
  assert (S0 : 0 <= s) by (unfold s, e'; zlia). replace (match s with Z0 => Zpos m1 | Zpos _ => Z.shiftl (Zpos m1) s | Zneg _ => 0 end) with (Zpos m1 * 2 ^ s) by (destruct s; [apply Z.mul_1_r | symmetry; apply Z.shiftl_mul_pow2; zlia | zlia]).
  destruct (Z.div_eucl (Zpos m1 * 2 ^ s) (Zpos m2)) as [q r] eqn:DE. pose proof (Z_div_mod (Zpos m1 * 2 ^ s) (Zpos m2) ltac:(zlia)) as DM. rewrite DE in DM. destruct DM as (EQ & RB).
  assert (P1 : 0 < Zpos m1 * 2 ^ s) by (apply Z.mul_pos_pos; [zlia | apply Z.pow_pos_nonneg; zlia]).
  set (b := Z.min e' emin).
  assert (R : rounded (signed (xorb s1 s2) (Zpos m1 * 2 ^ s * 2 ^ (e' - b))) (2 ^ (emin - b) * Zpos m2) (binary_round_aux prec emax (xorb s1 s2) q e' (new_location (Zpos m2) r))).
  { apply round_aux_rounded; try zlia.
    - nia.
    - rewrite EQ, (Z.mul_comm (2 ^ (e' - b)) (Zpos m2)). apply located_scale; [apply Z.pow_pos_nonneg; zlia|]. rewrite (Z.mul_comm (Zpos m2) q). apply new_location_located; zlia.
    - apply Z.le_trans with (fexp (d1 + e1 - (d2 + e2))); [unfold e'; zlia|]. apply fexp_mono. cut (d1 + s - d2 <= Zdigits2 q); [unfold s; zlia|].
      destruct (Z.le_gt_cases (d1 + s - d2) 0) as [LE|GT]; [destruct q; cbn [Zdigits2]; zlia|].
      pose proof (digits2_bounds m1) as D1. pose proof (digits2_bounds m2) as D2. cbn [Zdigits2] in d1, d2. fold d1 in D1. fold d2 in D2. assert (0 < d1 /\ 0 < d2) by (unfold d1, d2; zlia).
      assert (QL : 2 ^ (d1 + s - d2 - 1) <= q).
      { apply Z.lt_succ_r. unfold Z.succ. apply (Z.mul_lt_mono_pos_l (2 ^ d2)); [apply Z.pow_pos_nonneg; zlia|]. rewrite <- Z.pow_add_r by zlia. replace (d2 + (d1 + s - d2 - 1)) with (d1 - 1 + s) by zlia. rewrite Z.pow_add_r by zlia.
        assert (0 <= q) by nia. assert (0 < 2 ^ s) by (apply Z.pow_pos_nonneg; zlia).
        apply Z.le_lt_trans with (Zpos m1 * 2 ^ s); [apply Z.mul_le_mono_nonneg_r; zlia|]. rewrite EQ. apply Z.lt_le_trans with (Zpos m2 * (q + 1)); [zlia|]. apply Z.mul_le_mono_nonneg_r; zlia. }
      destruct q as [|q|q]; [assert (0 < 2 ^ (d1 + s - d2 - 1)) by (apply Z.pow_pos_nonneg; zlia); zlia| |assert (0 < 2 ^ (d1 + s - d2 - 1)) by (apply Z.pow_pos_nonneg; zlia); zlia].
      cbn [Zdigits2]. pose proof (digits2_bounds q) as DQ. assert (d1 + s - d2 - 1 < Zpos (digits2_pos q)) by (apply (Z.pow_lt_mono_r_iff 2); zlia). zlia. }
  rewrite !(key_signed prec emax). set (k1 := Zpos m1 * 2 ^ (e1 - emin)). set (k2 := Zpos m2 * 2 ^ (e2 - emin)) in *.
  replace (signed (signed s2 k2 <? 0) (signed s1 k1 * 2 ^ (- emin))) with (signed (xorb s1 s2) (k1 * 2 ^ (- emin))).
  2: { destruct s2; cbn [signed]; [replace (- k2 <? 0) with true by (symmetry; apply Z.ltb_lt; zlia) | replace (k2 <? 0) with false by (symmetry; apply Z.ltb_ge; zlia)]; destruct s1; cbn [signed xorb]; ring. }
  replace (Z.abs (signed s2 k2)) with k2 by (destruct s2; cbn [signed]; zlia).
  refine (rounded_scale _ _ _ _ _ _ _ _ R); [apply Z.mul_pos_pos; [apply Z.pow_pos_nonneg; zlia | zlia] | exact K2|].
  assert (POW : 2 ^ s * 2 ^ (e' - b) * 2 ^ (e2 - emin) = 2 ^ (e1 - emin) * 2 ^ (- emin) * 2 ^ (emin - b)) .
  { assert (BE : b <= e' /\ b <= emin) by (unfold b; zlia). assert (SE : s + e' = e1 - e2) by (unfold s; zlia). clearbody b s e'. clear - E1 E2 EN BE SE S0. rewrite <- !Z.pow_add_r by zlia. replace (s + (e' - b) + (e2 - emin)) with (e1 - emin + - emin + (emin - b)) by zlia. reflexivity. }
  unfold k1, k2. destruct (xorb s1 s2); cbn [signed].
  - transitivity (- (Zpos m1 * Zpos m2 * (2 ^ s * 2 ^ (e' - b) * 2 ^ (e2 - emin)))); [ring | rewrite POW; ring].
  - transitivity (Zpos m1 * Zpos m2 * (2 ^ s * 2 ^ (e' - b) * 2 ^ (e2 - emin))); [ring | rewrite POW; ring].
Qed.
End Format.
