(** Proofs about MathModel.v (fourth part): single bits, Clamp, Approach, NumberEquals, ArithmeticRightShift, IntegralPow. *)
From Verif Require Import Base CInt MathModel MathProofs MathProofs2.
Open Scope Z_scope.
Ltac Zify.zify_post_hook ::= Z.div_mod_to_equations.

(** ** Single bits *)
Lemma shiftl1_bits bit i : 0 <= bit -> 0 <= i -> Z.testbit (Z.shiftl 1 bit) i = (i =? bit).
Proof.
  intros Hb Hi. rewrite Z.shiftl_mul_pow2, Z.mul_1_l by assumption. destruct (Z.eqb_spec i bit) as [->|H].
  - now apply Z.pow2_bits_true.
  - apply Z.pow2_bits_false. lia.
Qed.
Lemma cast_low t z i : sgn t = false -> 0 <= i < wid t -> Z.testbit (cast t z) i = Z.testbit z i.
Proof. intros HS Hi. rewrite cast_unsigned_mod by exact HS. apply Z.mod_pow2_bits_low. lia. Qed.
Lemma cast_in_range t z : sgn t = false -> 0 < wid t -> 0 <= cast t z <= tmax t.
Proof.
  intros HS HW. rewrite cast_unsigned_mod by exact HS. unfold tmax. rewrite HS.
  pose proof (Z.mod_pos_bound z (2 ^ wid t) ltac:(apply Z.pow_pos_nonneg; lia)). lia.
Qed.

Lemma SetBit_any t v bit : In t int_types -> 0 <= bit < wid t -> exists r, SetBit t v bit = Done r /\ in_range t r = true /\
  forall i, 0 <= i < wid t -> Z.testbit r i = if i =? bit then true else Z.testbit v i.
Proof.
  intros Ht Hb. unfold SetBit. replace ((0 <=? bit) && (bit <? wid t)) with true by lia. cbn [assert bind]. eexists. split; [reflexivity|].
  split; [now apply cast_any_range|]. intros i Hi. rewrite cast_low_any, Z.lor_spec, shiftl1_bits by lia.
  destruct (i =? bit); [apply orb_true_r | apply orb_false_r].
Qed.
Lemma ClearBit_any t v bit : In t int_types -> 0 <= bit < wid t -> exists r, ClearBit t v bit = Done r /\ in_range t r = true /\
  forall i, 0 <= i < wid t -> Z.testbit r i = if i =? bit then false else Z.testbit v i.
Proof.
  intros Ht Hb. unfold ClearBit. replace ((0 <=? bit) && (bit <? wid t)) with true by lia. cbn [assert bind]. eexists. split; [reflexivity|].
  split; [now apply cast_any_range|]. intros i Hi. rewrite cast_low_any, Z.land_spec, Z.lnot_spec, shiftl1_bits by lia.
  destruct (i =? bit); [apply andb_false_r | apply andb_true_r].
Qed.
Lemma ToggleBit_any t v bit : In t int_types -> 0 <= bit < wid t -> exists r, ToggleBit t v bit = Done r /\ in_range t r = true /\
  forall i, 0 <= i < wid t -> Z.testbit r i = if i =? bit then negb (Z.testbit v i) else Z.testbit v i.
Proof.
  intros Ht Hb. unfold ToggleBit. replace ((0 <=? bit) && (bit <? wid t)) with true by lia. cbn [assert bind]. eexists. split; [reflexivity|].
  split; [now apply cast_any_range|]. intros i Hi. rewrite cast_low_any, Z.lxor_spec, shiftl1_bits by lia.
  destruct (i =? bit); [apply xorb_true_r | apply xorb_false_r].
Qed.
Lemma ClearBit_spec t v bit : In t unsigned_types -> 0 <= bit < wid t -> exists r, ClearBit t v bit = Done r /\ 0 <= r <= tmax t /\
  forall i, 0 <= i < wid t -> Z.testbit r i = if i =? bit then false else Z.testbit v i.
Proof.
  intros Ht Hb. destruct (unsigned_in t Ht) as (Ht' & HS & HW). destruct (ClearBit_any t v bit Ht' Hb) as (r & E & R & B).
  exists r. split; [exact E|]. split; [|exact B]. unfold in_range, tmin in R. rewrite HS in R. lia.
Qed.
(** [T(1) << bit] in the promoted type: one bit, and for the sign bit of int or a wider type the bits above it as well. *)
Lemma TestBit_spec t v bit : In t int_types -> in_range t v = true -> 0 <= bit < wid t -> TestBit t v bit = Done (Z.testbit v bit).
Proof.
  intros Ht Hv Hb. unfold TestBit. replace ((0 <=? bit) && (bit <? wid t)) with true by lia. cbn [assert bind]. f_equal.
  assert (WP : wid t <= wid (promote t)) by (clear - Ht; each_type Ht; vm_compute; discriminate).
  assert (B : forall i, 0 <= i < wid (promote t) -> Z.testbit (Z.land v (cast (promote t) (Z.shiftl 1 bit))) i = (i =? bit) && Z.testbit v i).
  { intros i Hi. rewrite Z.land_spec, cast_low_any, shiftl1_bits by lia. apply andb_comm. }
  destruct (Z.testbit v bit) eqn:T.
  - destruct (Z.eqb_spec (Z.land v (cast (promote t) (Z.shiftl 1 bit))) 0) as [E|E]; [|reflexivity]. specialize (B bit ltac:(lia)).
    rewrite E, Z.bits_0, Z.eqb_refl, T in B. discriminate.
  - replace (Z.land v (cast (promote t) (Z.shiftl 1 bit))) with 0; [reflexivity|].
    assert (Hp : In (promote t) int_types) by (clear - Ht; each_type Ht; cbn; tauto).
    apply (in_range_ext (promote t)); trivial.
    + clear - Ht. each_type Ht; reflexivity.
    + destruct (Z.lt_ge_cases v 0) as [N|N].
      * assert (C : bit < wid t - 1).
        { destruct (Z.lt_ge_cases bit (wid t - 1)); [assumption|]. replace bit with (wid t - 1) in T by lia.
          replace v with ((v + 2 ^ (wid t - 1)) - 2 ^ (wid t - 1)) in T by lia. rewrite neg_bits in T.
          - rewrite Z.ltb_irrefl in T. discriminate.
          - lia.
          - clear - Ht Hv N. each_type Ht; ranges; lia.
          - lia. }
        assert (PB : 2 ^ bit < 2 ^ (wid t - 1)) by (apply Z.pow_lt_mono_r; lia).
        assert (PP := Z.pow_pos_nonneg 2 bit ltac:(lia) ltac:(lia)).
        rewrite Z.shiftl_mul_pow2, Z.mul_1_l by lia.
        rewrite cast_id; [|lia|clear - Ht PB PP; each_type Ht; ranges; lia].
        assert (L : 0 <= Z.land v (2 ^ bit)) by (apply Z.land_nonneg; lia).
        assert (U : Z.land v (2 ^ bit) <= 2 ^ bit).
        { assert (Z.land v (2 ^ bit) = if Z.testbit v bit then 2 ^ bit else 0) as ->; [|destruct (Z.testbit v bit); lia].
          apply Z.bits_inj'. intros i Hi. rewrite Z.land_spec. destruct (Z.eq_dec i bit) as [->|D].
          - rewrite Z.pow2_bits_true by lia. rewrite andb_true_r. destruct (Z.testbit v bit) eqn:Q; [now rewrite Z.pow2_bits_true by lia | now rewrite Z.bits_0].
          - rewrite Z.pow2_bits_false by lia. rewrite andb_false_r. destruct (Z.testbit v bit); [now rewrite Z.pow2_bits_false by lia | now rewrite Z.bits_0]. }
        clear - Ht PB L U. each_type Ht; ranges; lia.
      * assert (L : 0 <= Z.land v (cast (promote t) (Z.shiftl 1 bit))) by (apply Z.land_nonneg; lia).
        assert (U : Z.land v (cast (promote t) (Z.shiftl 1 bit)) <= v).
        { generalize (cast (promote t) (Z.shiftl 1 bit)). intros m. clear - N.
          assert (D : Z.land (Z.ldiff v m) (Z.land v m) = 0) by (apply Z.bits_inj'; intros i Hi; rewrite Z.land_spec, Z.ldiff_spec, Z.land_spec, Z.bits_0; now destruct (Z.testbit v i), (Z.testbit m i)).
          assert (E : Z.ldiff v m + Z.land v m = v) by (rewrite Z.add_nocarry_lxor, Z.lxor_lor by exact D; apply Z.lor_ldiff_and).
          pose proof (proj2 (Z.ldiff_nonneg v m) (or_introl N)). lia. }
        clear - Ht Hv L U. each_type Ht; ranges; lia.
    + intros i Hi. rewrite Z.bits_0, B by lia. destruct (Z.eqb_spec i bit) as [->|]; [now rewrite T | reflexivity].
Qed.
Lemma bit_out_of_range t v bit : (bit < 0 \/ wid t <= bit) -> SetBit t v bit = Fault FAssert /\ ClearBit t v bit = Fault FAssert /\
  ToggleBit t v bit = Fault FAssert /\ TestBit t v bit = Fault FAssert.
Proof.
  intros H. unfold SetBit, ClearBit, ToggleBit, TestBit. replace ((0 <=? bit) && (bit <? wid t)) with false by lia. auto.
Qed.

(** ** Clamp *)
Lemma Clamp_spec v lo hi : lo <= hi -> lo <= Clamp v lo hi <= hi /\ (forall x, lo <= x <= hi -> Z.abs (v - Clamp v lo hi) <= Z.abs (v - x)).
Proof. intros H. unfold Clamp. split; [lia|]. intros x Hx. lia. Qed.

(** ** Approach *)
(** The sum or difference is representable. *)
Definition approach_fits (t : ity) (v obj inc : Z) : Prop :=
  (v < obj -> v + inc <= tmax (promote t)) /\ (obj < v -> tmin (promote t) <= v - inc).

Lemma Approach_spec t v obj inc : In t int_types -> in_range t v = true -> in_range t obj = true -> 0 <= inc <= tmax t -> approach_fits t v obj inc ->
  exists r, Approach t v obj inc = Done r /\ Z.min v obj <= r <= Z.max v obj /\
    Z.abs (obj - r) = Z.max 0 (Z.abs (obj - v) - inc).
Proof.
  intros Ht Hv Ho Hi (F1 & F2). unfold Approach. destruct (Z.ltb_spec v obj) as [C|C].
  - rewrite (arith_id t) by (trivial; specialize (F1 C); each_type Ht; ranges; lia). cbn [bind]. eexists. split; [reflexivity|]. lia.
  - destruct (Z.ltb_spec obj v) as [D|D].
    + rewrite (arith_id t) by (trivial; specialize (F2 D); each_type Ht; ranges; lia). cbn [bind]. eexists. split; [reflexivity|]. lia.
    + eexists. split; [reflexivity|]. lia.
Qed.

Fixpoint Approach_iter (t : ity) (n : nat) (v obj inc : Z) : outcome Z :=
  match n with O => Done v | S k => r <- Approach t v obj inc ;; Approach_iter t k r obj inc end.
Lemma Approach_converges t obj inc : In t int_types -> in_range t obj = true -> 0 <= inc <= tmax t -> forall n v, in_range t v = true ->
  (forall x, Z.min v obj <= x <= Z.max v obj -> approach_fits t x obj inc) ->
  exists r, Approach_iter t n v obj inc = Done r /\ Z.min v obj <= r <= Z.max v obj /\ Z.abs (obj - r) = Z.max 0 (Z.abs (obj - v) - Z.of_nat n * inc).
Proof.
  intros Ht Ho Hi. induction n as [|n IH]; intros v Hv HF.
  - exists v. split; [reflexivity|]. lia.
  - cbn [Approach_iter]. destruct (Approach_spec t v obj inc) as (r & -> & R1 & R2); trivial; [apply HF; lia|]. cbn [bind].
    assert (Hr : in_range t r = true) by (clear -Hv Ho R1; unfold in_range in *; lia).
    destruct (IH r Hr) as (r' & E & R3 & R4); [intros x Hx; apply HF; lia|].
    exists r'. split; [exact E|]. split; [lia|]. rewrite R4, R2. rewrite Nat2Z.inj_succ, Z.mul_succ_l.
    assert (0 <= Z.of_nat n * inc) by (apply Z.mul_nonneg_nonneg; lia). lia.
Qed.

(** Unsigned wrap-around sends the value away from the objective. *)
Lemma Approach_unsigned_down t v obj inc : In t [u32; u64] -> 0 <= obj < v -> v < inc <= tmax t ->
  exists r, Approach t v obj inc = Done r /\ v < r.
Proof.
  intros Ht Hv Hi. unfold Approach. replace (v <? obj) with false by lia. replace (obj <? v) with true by lia.
  cbn [In] in Ht; destruct Ht as [<-|[<-|[]]]; unfold arith; ranges; cbn [bind]; eexists; (split; [reflexivity|]); rewrite cast_unsigned_mod by reflexivity; types.
  - rewrite <- (Z.mod_add (v - inc) 1) by lia. rewrite Z.mod_small; lia.
  - rewrite <- (Z.mod_add (v - inc) 1) by lia. rewrite Z.mod_small; lia.
Qed.
Lemma Approach_unsigned_up t v obj inc : In t [u32; u64] -> 0 <= v < obj -> obj <= tmax t -> 0 < inc <= tmax t -> tmax t < v + inc ->
  exists r, Approach t v obj inc = Done r /\ r < v.
Proof.
  intros Ht Hv Ho Hi HW. unfold Approach. replace (v <? obj) with true by lia.
  cbn [In] in Ht; destruct Ht as [<-|[<-|[]]]; unfold arith; ranges; cbn [bind]; eexists; (split; [reflexivity|]); rewrite cast_unsigned_mod by reflexivity; types.
  - rewrite <- (Z.mod_add (v + inc) (-1)) by lia. rewrite Z.mod_small; lia.
  - rewrite <- (Z.mod_add (v + inc) (-1)) by lia. rewrite Z.mod_small; lia.
Qed.

(** ** NumberEquals *)
Lemma NumberEquals_spec t a b d : In t [u8; u16; u32; u64; i32; i64] -> in_range t a = true -> in_range t b = true -> 0 <= d <= tmax t ->
  NumberEquals t a b d = Done (Z.abs (a - b) <=? d).
Proof.
  intros Ht Ha Hb Hd. unfold NumberEquals.
  assert (G : forall x y, y <= x -> in_range t x = true -> in_range t y = true ->
     (if sgn t then let u := make_unsigned t in d0 <- arith u (cast u x - cast u y) ;; Done (d0 <=? cast u d)
      else d0 <- arith t (x - y) ;; Done (cast t d0 <=? d)) = Done (x - y <=? d)).
  { intros x y Hxy Hx Hy. cbn [In] in Ht. destruct Ht as [<-|[<-|[<-|[<-|[<-|[<-|[]]]]]]]; cbv zeta; types; cbv iota.
    1-4: rewrite arith_id by (cbn; try tauto; ranges; lia); cbn [bind]; rewrite cast_id by (ranges; lia); reflexivity.
    all: unfold arith; types; cbn [bind]; rewrite !cast_unsigned_mod by reflexivity; types; rewrite <- Zminus_mod;
      rewrite !Z.mod_small by (ranges; lia); reflexivity. }
  destruct (Z.ltb_spec a b) as [C|C]; cbv zeta in G; rewrite G by (trivial; lia); f_equal; f_equal; lia.
Qed.
(** 8 and 16 bits: operands of opposite signs always compare equal. *)
Lemma NumberEquals_narrow t a b d : In t [i8; i16] -> tmin t <= b < 0 -> 0 <= a <= tmax t -> 0 <= d <= tmax t ->
  NumberEquals t a b d = Done true.
Proof.
  intros Ht Hb Ha Hd. unfold NumberEquals. replace (a <? b) with false by lia.
  cbn [In] in Ht; destruct Ht as [<-|[<-|[]]]; types; cbv zeta iota.
  - rewrite (cast_id _ a), (cast_id _ d) by (ranges; lia).
    rewrite (cast_unsigned_mod _ b) by reflexivity. types. rewrite <- (Z.mod_add b 1) by lia. rewrite Z.mod_small by (ranges; lia).
    rewrite arith_id by (cbn; try tauto; ranges; lia). cbn [bind]. f_equal. ranges. lia.
  - rewrite (cast_id _ a), (cast_id _ d) by (ranges; lia).
    rewrite (cast_unsigned_mod _ b) by reflexivity. types. rewrite <- (Z.mod_add b 1) by lia. rewrite Z.mod_small by (ranges; lia).
    rewrite arith_id by (cbn; try tauto; ranges; lia). cbn [bind]. f_equal. ranges. lia.
Qed.
Lemma NumberEquals_narrow_same_sign t a b d : In t [i8; i16] -> in_range t a = true -> in_range t b = true -> 0 <= d <= tmax t ->
  (0 <= a <-> 0 <= b) -> NumberEquals t a b d = Done (Z.abs (a - b) <=? d).
Proof.
  intros Ht Ha Hb Hd HS. unfold NumberEquals.
  assert (G : forall x y, y <= x -> (0 <= x <-> 0 <= y) -> in_range t x = true -> in_range t y = true ->
     (let u := make_unsigned t in d0 <- arith u (cast u x - cast u y) ;; Done (d0 <=? cast u d)) = Done (x - y <=? d)).
  { intros x y Hxy HS' Hx Hy. cbv zeta.
    assert (E : cast (make_unsigned t) x - cast (make_unsigned t) y = x - y).
    { rewrite !cast_unsigned_mod by reflexivity. cbn [In] in Ht; destruct Ht as [<-|[<-|[]]]; ranges; lia. }
    rewrite E. rewrite (cast_id _ d) by (cbn [In] in Ht; destruct Ht as [<-|[<-|[]]]; ranges; lia).
    rewrite arith_id; [reflexivity | |]; cbn [In] in Ht; destruct Ht as [<-|[<-|[]]]; [cbn; tauto | cbn; tauto | |]; ranges; lia. }
  cbv zeta in G. assert (ST : sgn t = true) by (cbn [In] in Ht; destruct Ht as [<-|[<-|[]]]; reflexivity). rewrite ST.
  destruct (Z.ltb_spec a b) as [C|C]; rewrite G by (trivial; lia); f_equal; f_equal; lia.
Qed.

(** ** ArithmeticRightShift *)
Lemma shiftr_in_range t v s : In t int_types -> in_range t v = true -> 0 <= s -> in_range t (v / 2 ^ s) = true.
Proof.
  intros Ht Hv Hs. pose proof (Z.pow_pos_nonneg 2 s ltac:(lia) Hs) as P.
  assert (B : (0 <= v -> 0 <= v / 2 ^ s <= v) /\ (v < 0 -> v <= v / 2 ^ s < 0)).
  { split; intros H.
    - split; [apply Z.div_pos; lia|]. apply Z.div_le_upper_bound; [lia|]. nia.
    - split; [|apply Z.div_lt_upper_bound; lia]. apply Z.div_le_lower_bound; [lia|]. nia. }
  unfold in_range in *. assert (tmin t <= 0 <= tmax t) by (each_type Ht; ranges; lia).
  destruct B as [B1 B2]. destruct (Z.le_gt_cases 0 v) as [C|C]; [specialize (B1 C) | specialize (B2 C)]; lia.
Qed.
Lemma in_promote t v : In t int_types -> in_range t v = true -> in_range (promote t) v = true.
Proof. intros Ht Hv. each_type Ht; ranges; lia. Qed.
Lemma wid_promote t : In t int_types -> 0 < wid t <= wid (promote t).
Proof. intros Ht. each_type Ht; cbn; lia. Qed.

Lemma ars_cpp20 impl t1 t2 v s : In t1 int_types -> in_range t1 v = true -> 0 <= s < wid (promote t1) ->
  ArithmeticRightShift true impl t1 t2 v s = Done (v / 2 ^ s).
Proof.
  intros Ht Hv Hs. unfold ArithmeticRightShift, impl_shr. replace ((s <? 0) || (wid (promote t1) <=? s)) with false by lia. cbn [bind].
  f_equal. rewrite Z.shiftr_div_pow2 by lia. apply cast_id; [pose proof (wid_promote t1 Ht); lia|]. apply shiftr_in_range; trivial. lia.
Qed.

Lemma ars_simple impl t1 t2 v s : In t1 int_types -> in_range t1 v = true -> 0 <= s < wid (promote t1) -> (impl = true \/ 0 <= v) ->
  (r <- impl_shr t1 impl v s ;; Done (cast t1 r)) = Done (v / 2 ^ s) /\ (sgn t2 = false \/ 0 <= v -> ArithmeticRightShift false impl t1 t2 v s = Done (v / 2 ^ s)).
Proof.
  intros Ht Hv Hs HI. assert (E : (r <- impl_shr t1 impl v s ;; Done (cast t1 r)) = Done (v / 2 ^ s)).
  { unfold impl_shr. replace ((s <? 0) || (wid (promote t1) <=? s)) with false by lia. pose proof (wid_promote t1 Ht) as W.
    pose proof (shiftr_in_range t1 v s Ht Hv ltac:(lia)) as R.
    destruct impl; cbn [bind].
    - f_equal. rewrite Z.shiftr_div_pow2 by lia. apply cast_id; [lia|]. exact R.
    - destruct HI as [HI|HI]; [discriminate|]. f_equal. rewrite Z.mod_small.
      + rewrite Z.shiftr_div_pow2 by lia. rewrite (cast_id (promote t1)) by (try lia; now apply in_promote). apply cast_id; [lia | exact R].
      + split; [exact HI|]. pose proof (in_promote t1 v Ht Hv) as IP. clear -Ht IP. each_type Ht; ranges; lia. }
  split; [exact E|]. intros HS. unfold ArithmeticRightShift. destruct (sgn t2) eqn:S2; [|exact E].
  destruct HS as [HS|HS]; [discriminate|]. replace (v <? 0) with false by lia. exact E.
Qed.

Lemma negative_high t v i : In t int_types -> in_range t v = true -> v < 0 -> wid t - 1 <= i -> Z.testbit v i = true.
Proof.
  intros Ht Hv Hn Hi. replace v with ((v + 2 ^ (wid t - 1)) - 2 ^ (wid t - 1)) by lia. rewrite neg_bits.
  - replace (i <? wid t - 1) with false by lia. reflexivity.
  - each_type Ht; cbn; lia.
  - each_type Ht; ranges; lia.
  - pose proof (type_widths t Ht). lia.
Qed.

(** The C++17 formula for a negative value, with either kind of implementation-defined shift. *)
Lemma ars_cpp17 impl t1 t2 v s : In t1 int_types -> sgn t2 = true -> in_range t1 v = true -> 0 <= s < wid (promote t1) ->
  ArithmeticRightShift false impl t1 t2 v s = Done (v / 2 ^ s).
Proof.
  intros Ht H2 Hv Hs. destruct (Z.le_gt_cases 0 v) as [C|C].
  { apply (ars_simple impl t1 t2); auto. }
  unfold ArithmeticRightShift. rewrite H2. destruct (Z.ltb_spec 0 s) as [S0|S0].
  2:{ rewrite andb_false_r. assert (s = 0) by lia. subst s. destruct impl; [apply (ars_simple true t1 t2); auto|].
      unfold impl_shr. replace ((0 <? 0) || (wid (promote t1) <=? 0)) with false by lia. cbn [bind]. f_equal.
      rewrite Z.shiftr_0_r. change (2 ^ 0) with 1. rewrite Z.div_1_r. pose proof (wid_promote t1 Ht) as W.
      apply (in_range_ext t1); trivial; [now apply cast_any_range|]. intros i Hi.
      rewrite !cast_low_any, Z.mod_pow2_bits_low by lia. reflexivity. }
  replace (v <? 0) with true by lia. cbn [andb].
  pose proof (wid_promote t1 Ht) as W. set (W1 := wid (promote t1)) in *.
  set (u := promote (make_unsigned t1)).
  assert (HU : In u int_types /\ wid u = W1 /\ wid (promote u) = W1) by (unfold u, W1; each_type Ht; cbn; tauto). destruct HU as (HU & WU & WPU).
  assert (ST : sgn t1 = true) by (clear -Ht C Hv; each_type Ht; ranges; try reflexivity; lia).
  unfold impl_shr. fold W1. rewrite WPU. replace ((s <? 0) || (W1 <=? s)) with false by lia. cbn [bind].
  assert (BR : forall i, 0 <= i < W1 -> s < W1 ->
     Z.testbit (if impl then Z.shiftr v s else cast (promote t1) (Z.shiftr (v mod 2 ^ W1) s)) i = if i + s <? W1 then Z.testbit v (i + s) else impl).
  { intros i Hi _. destruct impl.
    - rewrite Z.shiftr_spec by lia. destruct (Z.ltb_spec (i + s) W1); [reflexivity|]. apply (negative_high t1); trivial. lia.
    - rewrite cast_low_any by (fold W1; lia). rewrite Z.shiftr_spec by lia. destruct (Z.ltb_spec (i + s) W1).
      + apply Z.mod_pow2_bits_low. lia.
      + apply Z.mod_pow2_bits_high. lia. }
  assert (BM : forall i, 0 <= i < W1 ->
     Z.testbit (cast u (Z.lnot (if impl then Z.shiftr (cast u (Z.lnot 0)) s else cast (promote u) (Z.shiftr (cast u (Z.lnot 0) mod 2 ^ W1) s)))) i
     = if i + s <? W1 then false else (if impl then negb (sgn u) else true)).
  { intros i Hi. rewrite cast_low_any, Z.lnot_spec by lia. destruct impl.
    - rewrite Z.shiftr_spec by lia. destruct (Z.ltb_spec (i + s) W1) as [L|L].
      + rewrite cast_low_any, Z.lnot_spec, Z.bits_0 by lia. reflexivity.
      + f_equal. change (Z.lnot 0) with (-1). destruct (sgn u) eqn:SU.
        * rewrite cast_id; [apply Z.bits_m1; lia | lia |]. clear -HU SU. each_type HU; try discriminate; reflexivity.
        * rewrite cast_unsigned_mod by exact SU. apply Z.mod_pow2_bits_high. lia.
    - rewrite cast_low_any by lia. rewrite Z.shiftr_spec by lia. destruct (Z.ltb_spec (i + s) W1) as [L|L].
      + rewrite Z.mod_pow2_bits_low, cast_low_any, Z.lnot_spec, Z.bits_0 by lia. reflexivity.
      + rewrite Z.mod_pow2_bits_high by lia. reflexivity. }
  set (R := if impl then Z.shiftr v s else cast (promote t1) (Z.shiftr (v mod 2 ^ W1) s)) in *.
  replace (if impl then Done (Z.shiftr v s) else Done (cast (promote t1) (Z.shiftr (v mod 2 ^ W1) s))) with (Done R) by (unfold R; now destruct impl).
  set (M := if impl then Z.shiftr (cast u (Z.lnot 0)) s else cast (promote u) (Z.shiftr (cast u (Z.lnot 0) mod 2 ^ W1) s)) in *.
  replace (if impl then Done (Z.shiftr (cast u (Z.lnot 0)) s) else Done (cast (promote u) (Z.shiftr (cast u (Z.lnot 0) mod 2 ^ W1) s))) with (Done M) by (unfold M; now destruct impl).
  cbn [bind]. f_equal. apply (in_range_ext t1); trivial.
  - now apply cast_any_range.
  - apply shiftr_in_range; trivial. lia.
  - intros i Hi. rewrite cast_low_any, Z.lor_spec, BR, BM by lia. rewrite Z.div_pow2_bits by lia.
    destruct (Z.ltb_spec (i + s) W1) as [L|L]; [apply orb_false_r|].
    rewrite (negative_high t1 v (i + s)) by (trivial; lia). destruct impl; reflexivity.
Qed.

(** An unsigned shift count takes the branch without the correction: with a logical shift a negative value goes wrong. *)
Lemma ars_cpp17_unsigned_count_wrong t1 t2 v s : In t1 [i32; i64] -> sgn t2 = false -> tmin t1 <= v < 0 -> 0 < s < wid t1 ->
  exists r, ArithmeticRightShift false false t1 t2 v s = Done r /\ 0 <= r.
Proof.
  intros Ht H2 Hv Hs. unfold ArithmeticRightShift. rewrite H2.
  assert (PT : promote t1 = t1) by (cbn [In] in Ht; destruct Ht as [<-|[<-|[]]]; reflexivity).
  unfold impl_shr. rewrite PT. replace ((s <? 0) || (wid t1 <=? s)) with false by lia. cbn [bind]. eexists. split; [reflexivity|].
  assert (W : 0 < wid t1) by lia. pose proof (Z.mod_pos_bound v (2 ^ wid t1) ltac:(apply Z.pow_pos_nonneg; lia)) as B.
  assert (ID : in_range t1 (Z.shiftr (v mod 2 ^ wid t1) s) = true).
  { rewrite Z.shiftr_div_pow2 by lia. pose proof (Z.pow_pos_nonneg 2 s ltac:(lia) ltac:(lia)).
    assert (v mod 2 ^ wid t1 / 2 ^ s < 2 ^ (wid t1 - s)).
    { apply Z.div_lt_upper_bound; [lia|]. rewrite <- Z.pow_add_r by lia. replace (s + (wid t1 - s)) with (wid t1) by lia. lia. }
    assert (2 ^ (wid t1 - s) <= 2 ^ (wid t1 - 1)) by (apply Z.pow_le_mono_r; lia).
    assert (0 <= v mod 2 ^ wid t1 / 2 ^ s) by (apply Z.div_pos; lia).
    clear -H0 H1 H3 Ht. cbn [In] in Ht; destruct Ht as [<-|[<-|[]]]; unfold in_range, tmin, tmax; cbn [sgn wid i32 i64] in *;
      generalize dependent (v mod 2 ^ 32 / 2 ^ s); generalize dependent (v mod 2 ^ 64 / 2 ^ s); intros; lia. }
  rewrite (cast_id t1 (Z.shiftr _ _)) by trivial. rewrite cast_id by trivial. apply Z.shiftr_nonneg. lia.
Qed.

(** ** IntegralPow *)
Lemma IntegralPow_unsigned t b n : In t [u8; u32; u64] -> 0 <= b <= tmax t -> IntegralPow t b n = Done ((b ^ Z.of_nat n) mod 2 ^ wid t).
Proof.
  intros Ht Hb. unfold IntegralPow.
  destruct (foreach_range (fun i r => r = (b ^ Z.of_nat i) mod 2 ^ wid t)
     (fun (r : Z) (_ : nat) => m <- arith t (r * b) ;; Done (cast t m)) 0 n 1) as (r & E & R); [lia | | | now rewrite E, R].
  - cbn [In] in Ht; destruct Ht as [<-|[<-|[<-|[]]]]; reflexivity.
  - intros i r Hi ->. replace (i + 1)%nat with (S i) by lia. rewrite Nat2Z.inj_succ, Z.pow_succ_r by lia.
    set (x := b ^ Z.of_nat i).
    assert (A : exists m, arith t (x mod 2 ^ wid t * b) = Done m /\ cast t m = (b * x) mod 2 ^ wid t).
    { cbn [In] in Ht; destruct Ht as [<-|[<-|[<-|[]]]].
      - exists (x mod 2 ^ 8 * b). split.
        + apply arith_id; [cbn; tauto|]. pose proof (Z.mod_pos_bound x (2 ^ 8) ltac:(lia)). ranges. nia.
        + rewrite cast_unsigned_mod by reflexivity. types. rewrite Z.mul_mod_idemp_l by lia. f_equal. lia.
      - unfold arith. types. eexists. split; [reflexivity|]. rewrite !cast_unsigned_mod by reflexivity. types.
        rewrite Z.mod_mod, Z.mul_mod_idemp_l by lia. f_equal. lia.
      - unfold arith. types. eexists. split; [reflexivity|]. rewrite !cast_unsigned_mod by reflexivity. types.
        rewrite Z.mod_mod, Z.mul_mod_idemp_l by lia. f_equal. lia. }
    destruct A as (m & E & C). exists (cast t m). rewrite E. cbn [bind]. split; [reflexivity | exact C].
Qed.
(** When the result and all intermediate powers fit, no overflow for any type. *)
Lemma IntegralPow_exact t b n : In t int_types -> (forall k, (k <= n)%nat -> in_range t (b ^ Z.of_nat k) = true) ->
  IntegralPow t b n = Done (b ^ Z.of_nat n).
Proof.
  intros Ht HB. unfold IntegralPow.
  destruct (foreach_range (fun i r => r = b ^ Z.of_nat i)
     (fun (r : Z) (_ : nat) => m <- arith t (r * b) ;; Done (cast t m)) 0 n 1) as (r & E & R); [lia | | | now rewrite E, R].
  - reflexivity.
  - intros i r Hi ->. exists (b ^ Z.of_nat (i + 1)). split; [|reflexivity].
    replace (b ^ Z.of_nat i * b) with (b ^ Z.of_nat (i + 1)) by (rewrite Nat2Z.inj_add, Z.pow_add_r by lia; f_equal; change (Z.of_nat 1) with 1; lia).
    rewrite arith_id by (trivial; apply in_promote; trivial; apply HB; lia). cbn [bind]. rewrite cast_id; trivial; [|apply HB; lia].
    pose proof (wid_promote t Ht). lia.
Qed.

(** Mod and MultiplyAdd *)
Lemma quot_bounds : forall x y q r, x = y*q + r -> y <> 0 -> y <> -1 -> Z.abs r < Z.abs y -> 0 <= r * x -> Z.abs q <= Z.abs x /\ (q = - x -> x = 0).
Proof.
  intros x y q r E N1 N2 R S.
  assert (H: Z.abs q * Z.abs y <= Z.abs x).
  { rewrite <- Z.abs_mul, (Z.mul_comm q). destruct (Z.eq_dec q 0) as [->|Q]; [lia|]. assert (A : Z.abs y <= Z.abs (y * q)) by (rewrite Z.abs_mul; nia). subst x. generalize dependent (y*q). intros p S A.
    destruct (Z.le_gt_cases 0 r), (Z.le_gt_cases 0 (p + r)); try nia. }
  assert (Z.abs q <= Z.abs x) by nia.
  split; [lia|].
  intros ->. destruct (Z.eq_dec y 1); [nia|]. assert (2 <= Z.abs y) by lia. rewrite Z.abs_opp in *. nia.
Qed.
Lemma quot_range t x y : In t int_types -> in_range t x = true -> in_range t y = true -> y <> 0 -> ~ (x = tmin (promote t) /\ y = -1) -> in_range (promote t) (Z.quot x y) = true.
Proof.
  intros Ht Hx Hy Hne HM. pose proof (Z.quot_rem' x y) as Q. pose proof (Z.rem_bound_abs x y Hne) as R. pose proof (Z.rem_sign_mul x y Hne) as S.
  destruct (Z.eq_dec y (-1)) as [->|N].
  - assert (E : Z.quot x (-1) = - x) by lia. rewrite E. clear E Q R S Hne. each_type Ht; ranges; lia.
  - destruct (quot_bounds x y _ _ Q Hne N R S) as [B C]. assert (D : 0 <= x -> 0 <= y -> 0 <= Z.quot x y) by (intros; apply Z.quot_pos; lia). clear Hne HM Q R S. generalize dependent (Z.quot x y). intros q B C D. each_type Ht; ranges; lia.
Qed.
Lemma Mod_spec t x y : In t int_types -> in_range t x = true -> in_range t y = true -> y <> 0 -> ~ (x = tmin (promote t) /\ y = -1) -> Mod t x y = Done (Z.rem x y).
Proof.
  intros Ht Hx Hy Hne HM. unfold Mod, crem. replace (y =? 0) with false by lia. rewrite (arith_id t (Z.quot x y)) by (trivial; now apply quot_range). cbn [bind]. clear HM.
  assert (R : in_range t (Z.rem x y) = true).
  { assert (B : (0 <= x -> 0 <= Z.rem x y <= x) /\ (x <= 0 -> x <= Z.rem x y <= 0)).
    { split; intros H.
      - pose proof (Z.rem_nonneg x y Hne H). split; [lia|]. pose proof (Z.rem_le x y). destruct (Z.lt_ge_cases x (Z.abs y)) as [C|C].
        + rewrite <- Z.rem_abs_r by lia. rewrite Z.rem_small by lia. lia.
        + pose proof (Z.rem_bound_abs x y Hne). lia.
      - pose proof (Z.rem_nonpos x y Hne H). split; [|lia]. destruct (Z.lt_ge_cases (- x) (Z.abs y)) as [C|C].
        + rewrite <- Z.rem_abs_r by lia. replace x with (- - x) at 2 by lia. rewrite Z.rem_opp_l by lia. rewrite Z.rem_small by lia. lia.
        + pose proof (Z.rem_bound_abs x y Hne). lia. }
    clear Hy Hne. generalize dependent (Z.rem x y). intros z [B1 B2]. each_type Ht; ranges; lia. }
  rewrite arith_id by (trivial; now apply in_promote). cbn [bind]. rewrite cast_id; trivial. pose proof (wid_promote t Ht). lia.
Qed.
