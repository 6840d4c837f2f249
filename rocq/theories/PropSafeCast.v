(** Properties C73, C79 and C80: SafeCast. *)
From Coq Require Import QArith Qround.
From Verif Require Import Base CInt MathProofs SafeCastModel.
Open Scope Z_scope.

Definition I (t : ity) : ty := TArith (AInt t).
Local Ltac types H := cbn in H; decompose [or] H; clear H; subst; try contradiction.

Lemma cast_value t v : In t int_types -> tmin t <= v <= tmax t -> cast t v = v.
Proof. intros H R. apply cast_id; [types H; reflexivity | unfold in_range; lia]. Qed.
Lemma cast_in t v : In t int_types -> tmin t <= cast t v <= tmax t.
Proof.
  intros H. unfold cast, tmin, tmax. types H; cbn [sgn wid u8 u16 u32 u64 i8 i16 i32 i64];
  match goal with |- context [v mod ?m] => pose proof (Z.mod_pos_bound v m ltac:(reflexivity)) as B; set (r := v mod m) in * end;
  cbn in B |- *; try lia; match goal with |- context [?a <? ?b] => destruct (Z.ltb_spec a b) end; lia.
Qed.

Lemma type_facts t : In t int_types -> 0 < wid t /\ tmin t <= 0 /\ 0 < tmax t.
Proof. intros H. types H; cbn; lia. Qed.

(** *** C73 *)
(** The assertions, for the pairs of types where they are right, *)
Lemma check_exact F T v : In F int_types -> In T int_types -> tmin F <= v <= tmax F -> (sgn F = false \/ sgn T = true \/ wid F <= wid T) ->
  check_integral (AInt F) (AInt T) v = if in_range T v then Done tt else Fault FAssert.
Proof.
  intros HF HT R C. pose proof (cast_value F v HF R) as CF. pose proof (cast_in T v HT) as CT. pose proof (cast_value T v HT) as CV.
  assert (X : forall a b c : bool, a && b && c = in_range T v -> (assert a ;;; assert b ;;; assert c) = if in_range T v then Done tt else Fault FAssert).
  { intros a b c <-. destruct a, b, c; reflexivity. }
  unfold check_integral. apply X. clear X. cbn [is_signed sizeof max lowest]. unfold in_range.
  destruct (type_facts F HF) as (WF & F0 & F1). destruct (type_facts T HT) as (WT & T0 & T1).
  assert (PW : forall a b : Z, 0 <= a <= b -> 2 ^ a <= 2 ^ b) by (intros; apply Z.pow_le_mono_r; lia).
  destruct (Bool.bool_dec (sgn F) (sgn T)) as [E|E].
  - (* same sign *)
    rewrite E, eqb_reflx. cbn [andb]. replace (negb (sgn T) && sgn T) with false by (now destruct (sgn T)). replace (sgn T && negb (sgn T)) with false by (now destruct (sgn T)). cbn [orb].
    destruct (Z.gtb_spec (wid F) (wid T)) as [W|W]; cbn [conv].
    + assert (NT : tmax T <= tmax F /\ tmin F <= tmin T).
      { unfold tmin, tmax. rewrite E. pose proof (PW (wid T - 1) (wid F - 1)). pose proof (PW (wid T) (wid F)). destruct (sgn T); lia. }
      rewrite CF, (cast_value F (tmax T)), (cast_value F (tmin T)) by (assumption || lia).
      assert (SG : sgn T || (v >=? 0) = true).
      { destruct (sgn T) eqn:ST; [reflexivity|]. unfold tmin in R. rewrite E in R. cbn. lia. }
      rewrite SG. lia.
    + assert (NT : tmax F <= tmax T /\ tmin T <= tmin F).
      { unfold tmin, tmax. rewrite E. pose proof (PW (wid F - 1) (wid T - 1)). pose proof (PW (wid F) (wid T)). destruct (sgn T); lia. }
      rewrite (CV ltac:(lia)), (cast_value T (tmax T)), (cast_value T (tmin T)) by (assumption || lia).
      assert (SG : sgn T || (v >=? 0) = true).
      { destruct (sgn T) eqn:ST; [reflexivity|]. unfold tmin in R. rewrite E in R. cbn. lia. }
      rewrite SG. lia.
  - destruct (sgn F) eqn:SF, (sgn T) eqn:ST; try congruence; cbn [Bool.eqb andb orb negb conv].
    + (* signed to unsigned, not narrowing *)
      assert (W : wid F <= wid T) by (destruct C as [C|[C|C]]; [discriminate|discriminate|exact C]).
      assert (T00 : tmin T = 0) by (unfold tmin; now rewrite ST). rewrite T00, CF, (cast_value F 0) by (assumption || lia).
      assert (NT : tmax F <= tmax T) by (unfold tmax; rewrite SF, ST; pose proof (PW (wid F - 1) (wid T)); lia).
      rewrite (cast_value T (tmax T)) by (assumption || lia). destruct (Z.geb_spec v 0) as [V|V]; cbn [andb]; [|lia].
      rewrite CV by lia. lia.
    + (* unsigned to signed *)
      assert (F00 : tmin F = 0) by (unfold tmin; now rewrite SF). rewrite CF, (cast_value T (tmin T)) by (assumption || lia).
      assert (M : cast F (tmax T) = Z.min (tmax F) (tmax T)).
      { destruct (Z.le_gt_cases (tmax T) (tmax F)) as [L|L]; [rewrite cast_value by (assumption || lia); lia|]. rewrite Z.min_l by lia.
        unfold cast. rewrite SF. unfold tmax in L |- *. rewrite SF, ST in *.
        assert (W : wid F <= wid T - 1) by (destruct (Z.le_gt_cases (wid F) (wid T - 1)); [assumption|]; pose proof (PW (wid T - 1) (wid F)); lia).
        replace (wid T - 1) with (wid F + (wid T - 1 - wid F)) by lia. rewrite Z.pow_add_r by lia.
        pose proof (Z.pow_pos_nonneg 2 (wid F) ltac:(lia) ltac:(lia)). set (q := 2 ^ (wid T - 1 - wid F)). 
        replace (2 ^ wid F * q - 1) with (2 ^ wid F - 1 + (q - 1) * 2 ^ wid F) by ring. rewrite Z_mod_plus_full. apply Z.mod_small. lia. }
      rewrite M. lia.
Qed.

(** for prvalues of integer types: SafeCast asserts iff the value is not representable, and returns it otherwise. *)
Theorem C73_prvalue_partial : forall F T v, In F int_types -> In T int_types -> tmin F <= v <= tmax F -> (sgn F = false \/ sgn T = true \/ wid F <= wid T) ->
  SafeCast true Rvalue (I F) (I T) v = if in_range T v then Done v else Fault FAssert.
Proof.
  intros F T v HF HT R C. cbn [SafeCast I]. unfold safe_cast_arith. cbn [by_value andb]. rewrite check_exact by assumption. destruct (in_range T v) eqn:E; [|reflexivity].
  cbn [bind conv]. rewrite cast_value; [reflexivity|exact HT|unfold in_range in E; lia].
Qed.
Print Assumptions C73_prvalue_partial.
(** A representable value always comes out unchanged: every category, debug or not, enumerations included. *)
Theorem C73_representable : forall debug c (F T : ty) f t v, In f int_types -> In t int_types -> F = I f \/ F = TEnum f -> T = I t \/ T = TEnum t ->
  tmin f <= v <= tmax f -> tmin t <= v <= tmax t -> SafeCast debug c F T v = Done v.
Proof.
  intros debug c F T f t v Hf Ht EF ET Rf Rt.
  assert (CT : cast t v = v) by (now apply cast_value).
  assert (S : forall d c, safe_cast_arith d c (AInt f) (AInt t) v = Done v).
  { intros d c'. unfold safe_cast_arith. cbn [conv]. rewrite CT. destruct d, c'; try reflexivity. cbn [by_value andb].
    assert (E : check_integral (AInt f) (AInt t) v = Done tt); [|rewrite E; reflexivity].
    destruct (sgn f) eqn:SF; [destruct (sgn t) eqn:ST; [|destruct (Z.le_gt_cases (wid f) (wid t)) as [W|W]]|];
      try (rewrite check_exact by (assumption || (rewrite ?SF, ?ST; tauto)); unfold in_range; replace ((tmin t <=? v) && (v <=? tmax t)) with true by lia; reflexivity).
    (* signed to narrower unsigned: the checks pass *)
    unfold check_integral. cbn [is_signed sizeof max lowest]. rewrite SF, ST. cbn [Bool.eqb andb orb negb conv].
    assert (T0 : tmin t = 0) by (unfold tmin; now rewrite ST). rewrite T0 in *. destruct (type_facts f Hf) as (_ & F0 & F1).
    rewrite CT, (cast_value t (tmax t)), (cast_value f v), (cast_value f 0) by (assumption || lia).
    replace (v >=? 0) with true by lia. replace (v <=? tmax t) with true by lia. reflexivity. }
  destruct EF as [-> | ->], ET as [-> | ->]; cbn [SafeCast I].
  - apply S.
  - destruct debug; [rewrite S; cbn [bind]|]; now rewrite CT.
  - destruct (debug && by_value c); [apply S|]. cbn [conv]. now rewrite CT.
  - now rewrite CT.
Qed.
Print Assumptions C73_representable.
(** Prvalues of enumeration type are checked like their underlying values. *)
Theorem C73_enum_source : forall f T v, SafeCast true Rvalue (TEnum f) (TArith T) v = SafeCast true Rvalue (I f) (TArith T) v.
Proof. reflexivity. Qed.
Print Assumptions C73_enum_source.
(** The pairs left out: a prvalue of signed type converted to a narrower unsigned type is not checked against the maximum. *)
Theorem C73_signed_narrowing_refuted : forall F T v, In F int_types -> In T int_types -> tmin F <= v <= tmax F -> sgn F = true -> sgn T = false ->
  SafeCast true Rvalue (I F) (I T) v = if 0 <=? v then Done (cast T v) else Fault FAssert.
Proof.
  intros F T v HF HT R SF ST. cbn [SafeCast I]. unfold safe_cast_arith, check_integral. cbn [by_value andb is_signed sizeof max lowest]. rewrite SF, ST. cbn [Bool.eqb andb orb negb conv].
  destruct (type_facts F HF) as (_ & F0 & F1). destruct (type_facts T HT) as (_ & T0 & T1). pose proof (cast_in T v HT).
  assert (T00 : tmin T = 0) by (unfold tmin; now rewrite ST). rewrite T00 in *.
  rewrite (cast_value T (tmax T)), (cast_value F v), (cast_value F 0) by (assumption || lia).
  replace (cast T v <=? tmax T) with true by lia. replace (v >=? 0) with (0 <=? v) by lia. destruct (0 <=? v) eqn:E; [|reflexivity]. reflexivity.
Qed.
Print Assumptions C73_signed_narrowing_refuted.
(** Variables are never checked; *)
Theorem C73_lvalue_refuted : forall debug F T v, SafeCast debug Lvalue (I F) (I T) v = Done (cast T v).
Proof. intros debug F T v. cbn [SafeCast I]. unfold safe_cast_arith. now destruct debug. Qed.
Print Assumptions C73_lvalue_refuted.
(** neither are conversions to enumerations, SafeCaster and IntegerToPointer, whatever their argument. *)
Theorem C73_enum_target_refuted : forall debug c f t v, SafeCast debug c (I f) (TEnum t) v = Done (cast t (cast t v)) \/ SafeCast debug c (I f) (TEnum t) v = Done (cast t v).
Proof. intros debug c f t v. destruct debug; [left|right]; reflexivity. Qed.
Print Assumptions C73_enum_target_refuted.
Theorem C73_safecaster_refuted : forall debug c F T v, SafeCaster debug c (I F) (I T) v = Done (cast T v).
Proof. intros debug c F T v. apply C73_lvalue_refuted. Qed.
Print Assumptions C73_safecaster_refuted.
Theorem C73_integer_to_pointer_refuted : forall debug F v, IntegerToPointer debug F v = Done (cast u64 v).
Proof. intros debug F v. apply C73_lvalue_refuted. Qed.
Print Assumptions C73_integer_to_pointer_refuted.
(** A prvalue converted to bool is checked against the maximum only when its type is unsigned and wider than one byte; from bool all is right. *)
Theorem C73_bool_refuted : forall F v, In F int_types -> tmin F <= v <= tmax F -> SafeCast true Rvalue (I F) (TArith ABool) v =
  if (v <? 0) || (negb (sgn F) && (8 <? wid F) && (1 <? v)) then Fault FAssert else Done (if v =? 0 then 0 else 1).
Proof.
  intros F v HF R. cbn [SafeCast I]. unfold safe_cast_arith, check_integral. cbn [by_value andb is_signed sizeof max lowest]. pose proof (cast_value F v HF R) as C.
  types HF; cbn in R; cbn [sgn wid u8 u16 u32 u64 i8 i16 i32 i64 Bool.eqb andb orb negb Z.gtb Z.ltb Z.compare Pos.compare Pos.compare_cont conv]; rewrite ?C; destruct (Z.geb_spec v 0); destruct (Z.ltb_spec v 0); try lia; cbn [assert bind orb]; try reflexivity;
    repeat match goal with |- context [cast ?t 1] => change (cast t 1) with 1 | |- context [cast ?t 0] => change (cast t 0) with 0 end;
    destruct (Z.eqb_spec v 0); try destruct (Z.ltb_spec 1 v); try destruct (Z.leb_spec v 1); try destruct (Z.geb_spec v 0); try lia; reflexivity.
Qed.
Print Assumptions C73_bool_refuted.
Theorem C73_bool_source : forall c debug T v, In T int_types -> 0 <= v <= 1 -> SafeCast debug c (TArith ABool) (I T) v = Done v /\ SafeCast debug c (TArith ABool) (TArith ABool) v = Done v.
Proof.
  intros c debug T v HT H. assert (E : v = 0 \/ v = 1) by lia. destruct E; subst v; destruct c, debug; types HT; split; reflexivity.
Qed.
Print Assumptions C73_bool_source.
(** PointerToInteger is exact. *)
Theorem C73_pointer_to_integer : forall T a, In T int_types -> 0 <= a <= tmax u64 -> PointerToInteger true T a = if in_range T a then Done a else Fault FAssert.
Proof. intros T a HT R. apply C73_prvalue_partial; [cbn; tauto | exact HT | exact R | now left]. Qed.
Print Assumptions C73_pointer_to_integer.
Example C73_nonvacuous :
  SafeCast true Rvalue (I u32) (I i8) 128 = Fault FAssert /\ SafeCast true Rvalue (I u32) (I i8) 127 = Done 127 /\ SafeCast true Rvalue (I i64) (I u64) (-1) = Fault FAssert /\
  SafeCast true Rvalue (I i32) (I u8) 300 = Done 44 /\ SafeCast true Lvalue (I u32) (I u8) 300 = Done 44 /\ SafeCast true Rvalue (I u32) (I u8) 300 = Fault FAssert.
Proof. repeat split. Qed.

(** *** C79 *)
Lemma truncate_Z q z : (q == inject_Z z)%Q -> truncate q = z.
Proof.
  intros H. unfold truncate. assert (F : Qfloor q = z) by (rewrite (Qfloor_comp _ _ H); apply Qfloor_Z). assert (C : Qceiling q = z) by (rewrite (Qceiling_comp _ _ H); apply Qceiling_Z).
  destruct (Qle_bool 0 q); assumption.
Qed.
Lemma le_Z q z m : (q == inject_Z z)%Q -> Qle_bool q (inject_Z m) = (z <=? m) /\ Qle_bool (inject_Z m) q = (m <=? z).
Proof.
  intros H. split; apply eq_true_iff_eq; rewrite Qle_bool_iff, H, Z.leb_le, <- Zle_Qle; reflexivity.
Qed.
(** A prvalue whose truncation fits in long long: SafeCast asserts iff the value is not an integer of the type, except at one value when the maximum is not representable in the float type. *)
Definition value_bits (t : ity) : Z := wid t - (if sgn t then 1 else 0).
Theorem C79_prvalue_partial : forall p T q, In T int_types -> in_range i64 (truncate q) = true -> (p < value_bits T -> ~ (q == inject_Z (2 ^ value_bits T))%Q) ->
  safe_cast_float true Rvalue p T (Fin q) = if Qeq_bool q (inject_Z (truncate q)) && in_range T (truncate q) then Done (truncate q) else Fault FAssert.
Proof.
  intros p T q HT R N. unfold safe_cast_float. cbn [by_value andb float_to_int]. rewrite R. cbn [require bind float_eq]. destruct (Qeq_bool q (inject_Z (truncate q))) eqn:E; [|reflexivity]. cbn [assert bind andb].
  apply Qeq_bool_iff in E. set (z := truncate q) in *. unfold float_le, float_ge. rewrite (proj1 (le_Z q z _ E)), (proj2 (le_Z q z _ E)).
  assert (M : (z <=? float_max p T) = (z <=? tmax T)).
  { unfold float_max. fold (value_bits T). assert (TM : tmax T = 2 ^ value_bits T - 1) by (unfold tmax, value_bits; destruct (sgn T); rewrite ?Z.sub_0_r; reflexivity). rewrite TM.
    destruct (Z.leb_spec (value_bits T) p) as [L|L]; [reflexivity|]. assert (z <> 2 ^ value_bits T) by (intros Z; apply (N L); rewrite <- Z; exact E). lia. }
  rewrite M. unfold in_range. destruct (Z.leb_spec z (tmax T)), (Z.leb_spec (tmin T) z); reflexivity.
Qed.
Print Assumptions C79_prvalue_partial.
(** Whenever a prvalue is converted, the result is the value. *)
Theorem C79_sound : forall p T v z, safe_cast_float true Rvalue p T v = Done z -> exists q, v = Fin q /\ (q == inject_Z z)%Q /\ in_range T z = true.
Proof.
  intros p T v z H. unfold safe_cast_float in H. cbn [by_value andb] in H. destruct v as [q| |]; cbn [float_to_int bind] in H; try discriminate. exists q. split; [reflexivity|].
  destruct (in_range i64 (truncate q)); cbn [require bind] in H; [|discriminate]. cbn [float_eq] in H. destruct (Qeq_bool q (inject_Z (truncate q))) eqn:E; cbn [assert bind] in H; [|discriminate].
  apply Qeq_bool_iff in E. destruct (float_le _ _); cbn [assert bind] in H; [|discriminate]. destruct (float_ge _ _); cbn [assert bind] in H; [|discriminate].
  destruct (in_range T (truncate q)) eqn:R; cbn [require bind] in H; [|discriminate]. injection H as <-. auto.
Qed.
Print Assumptions C79_sound.
(** The exceptions: 2^31 as a float passes the assertions for Int32 (2^32 for UInt32, ...) and its conversion is undefined; *)
Theorem C79_rounding_refuted : forall p T, In T int_types -> p < value_bits T -> safe_cast_float true Rvalue p T (Fin (inject_Z (2 ^ value_bits T))) = Fault FUB.
Proof.
  intros p T HT P. unfold safe_cast_float. cbn [by_value andb float_to_int]. rewrite (truncate_Z _ _ (Qeq_refl _)). destruct (in_range i64 (2 ^ value_bits T)); [|reflexivity]. cbn [require bind float_eq].
  rewrite (proj2 (Qeq_bool_iff _ _) (Qeq_refl _)). cbn [assert bind float_le float_ge]. unfold float_max. fold (value_bits T). destruct (Z.leb_spec (value_bits T) p); [lia|].
  rewrite (proj1 (le_Z _ _ _ (Qeq_refl _))), (proj2 (le_Z _ _ _ (Qeq_refl _))). rewrite Z.leb_refl. cbn [assert bind].
  assert (TM : tmax T = 2 ^ value_bits T - 1) by (unfold tmax, value_bits; destruct (sgn T); rewrite ?Z.sub_0_r; reflexivity). destruct (type_facts T HT) as (_ & T0 & _).
  pose proof (type_facts T HT) as (_ & _ & T1). replace (tmin T <=? 2 ^ value_bits T) with true by lia. cbn [assert bind].
  unfold in_range. replace (2 ^ value_bits T <=? tmax T) with false by lia. rewrite andb_false_r. reflexivity.
Qed.
Print Assumptions C79_rounding_refuted.
(** the values from 2^63 on, representable in UInt64, are undefined behaviour in the first assertion; *)
Theorem C79_large_refuted : forall p z, 2 ^ 63 <= z <= tmax u64 -> safe_cast_float true Rvalue p u64 (Fin (inject_Z z)) = Fault FUB.
Proof.
  intros p z H. unfold safe_cast_float. cbn [by_value andb float_to_int]. rewrite (truncate_Z _ _ (Qeq_refl _)). replace (in_range i64 z) with false; [reflexivity|]. unfold in_range. cbn. cbn in H. lia.
Qed.
Print Assumptions C79_large_refuted.
(** and variables are not checked: 3/2 becomes 1. *)
Theorem C79_lvalue_refuted : forall debug p T v, safe_cast_float debug Lvalue p T v = float_to_int T v.
Proof. intros debug p T v. unfold safe_cast_float. rewrite andb_false_r. reflexivity. Qed.
Print Assumptions C79_lvalue_refuted.
(** An unchecked conversion drops the fraction; what does not fit then, infinities and NaN are undefined. *)
Theorem C79_unchecked : forall p T v debug c, debug = false \/ c = Lvalue ->
  (forall z, safe_cast_float debug c p T v = Done z <-> exists q, v = Fin q /\ tmin T <= z <= tmax T /\
     ((0 <= q)%Q -> (inject_Z z <= q /\ q < inject_Z (z + 1))%Q) /\ ((q < 0)%Q -> (inject_Z (z - 1) < q /\ q <= inject_Z z)%Q)) /\
  ((forall z, safe_cast_float debug c p T v <> Done z) -> safe_cast_float debug c p T v = Fault FUB).
Proof.
  intros p T v debug c H. assert (E : safe_cast_float debug c p T v = float_to_int T v).
  { unfold safe_cast_float. replace (debug && by_value c)%bool with false; [reflexivity|]. destruct H; subst; [reflexivity|now rewrite andb_false_r]. }
  rewrite E. split.
  2:{ intros N. unfold float_to_int in *. destruct v as [q| |]; try reflexivity. cbv zeta in *. destruct (in_range T (truncate q)); [|reflexivity]. exfalso. exact (N _ eq_refl). }
  intros z. unfold float_to_int. destruct v as [q| |]; [|split; [discriminate|intros (q & Q & _); discriminate]|split; [discriminate|intros (q & Q & _); discriminate]]. cbv zeta.
  assert (TR : forall z, truncate q = z <-> ((0 <= q)%Q -> (inject_Z z <= q /\ q < inject_Z (z + 1))%Q) /\ ((q < 0)%Q -> (inject_Z (z - 1) < q /\ q <= inject_Z z)%Q)).
  { clear z. intros z. unfold truncate. destruct (Qle_bool 0 q) eqn:B.
    - apply Qle_bool_iff in B. split.
      + intros <-. split; [intros _; split; [apply Qfloor_le|apply Qlt_floor]|]. intros N. exfalso. exact (Qlt_not_le _ _ N B).
      + intros (P & _). destruct (P B) as (P1 & P2). pose proof (Qfloor_le q) as F1. pose proof (Qlt_floor q) as F2.
        pose proof (Qle_lt_trans _ _ _ P1 F2) as X. pose proof (Qle_lt_trans _ _ _ F1 P2) as Y. rewrite <- Zlt_Qlt in X, Y. lia.
    - assert (N : (q < 0)%Q) by (apply Qnot_le_lt; intros L; apply Qle_bool_iff in L; congruence). split.
      + intros <-. split; [intros L; exfalso; exact (Qlt_not_le _ _ N L)|intros _; split; [apply Qceiling_lt|apply Qle_ceiling]].
      + intros (_ & P). destruct (P N) as (P1 & P2). pose proof (Qceiling_lt q) as F1. pose proof (Qle_ceiling q) as F2.
        pose proof (Qlt_le_trans _ _ _ P1 F2) as X. pose proof (Qlt_le_trans _ _ _ F1 P2) as Y. rewrite <- Zlt_Qlt in X, Y. lia. }
  destruct (in_range T (truncate q)) eqn:R; cbn [require bind].
  - split.
    + intros [= <-]. exists q. split; [reflexivity|]. split; [unfold in_range in R; lia|]. now apply TR.
    + intros (q' & [= <-] & _ & P). f_equal. now apply TR.
  - split; [discriminate|]. intros (q' & [= <-] & B & P). apply TR in P. unfold in_range in R. lia.
Qed.
Print Assumptions C79_unchecked.
Theorem C79_not_finite_refuted : forall p T v, v = Inf \/ v = Nan -> safe_cast_float true Rvalue p T v = Fault FUB.
Proof. intros p T v [->| ->]; reflexivity. Qed.
Print Assumptions C79_not_finite_refuted.
Example C79_nonvacuous : safe_cast_float true Rvalue 24 i32 (Fin (3 # 2)) = Fault FAssert /\ safe_cast_float true Rvalue 24 i32 (Fin (-128 # 1)) = Done (-128) /\
  safe_cast_float true Rvalue 24 u8 (Fin (256 # 1)) = Fault FAssert /\ safe_cast_float true Rvalue 24 i32 (Fin (2147483648 # 1)) = Fault FUB /\ safe_cast_float true Lvalue 24 i32 (Fin (3 # 2)) = Done 1.
Proof. repeat split. Qed.

(** *** C80 *)
(** The dynamic type is never checked, for pointers and for references: a wrong downcast is undefined behaviour, in debug as in release. *)
Theorem C80_downcast_refuted : forall (C : Type) (derives : C -> C -> bool) debug from to dynamic, derives dynamic to = false ->
  safe_downcast derives CPointer debug from to dynamic = Fault FUB /\ safe_downcast derives CReference debug from to dynamic = Fault FUB /\ StaticUniquePointerCast derives debug from to dynamic = Fault FUB.
Proof. intros C derives debug from to dynamic H. unfold StaticUniquePointerCast, safe_downcast, static_downcast. cbn [is_base_of andb]. rewrite andb_false_r, H. repeat split. Qed.
Print Assumptions C80_downcast_refuted.
(** Right downcasts succeed. *)
Theorem C80_right_partial : forall (C : Type) (derives : C -> C -> bool) debug mk from to dynamic, derives dynamic to = true -> safe_downcast derives mk debug from to dynamic = Done tt.
Proof. intros C derives debug mk from to dynamic H. unfold safe_downcast, static_downcast. rewrite H. destruct (_ && _); reflexivity. Qed.
Print Assumptions C80_right_partial.
(** The check would work if it were made on the classes. *)
Theorem C80_classes : forall (C : Type) (derives : C -> C -> bool) from to dynamic, derives to from = true -> derives dynamic to = false ->
  safe_downcast derives CClass true from to dynamic = Fault FAssert.
Proof. intros C derives from to dynamic H D. unfold safe_downcast. cbn [is_base_of is_polymorphic andb]. rewrite H, D. reflexivity. Qed.
Print Assumptions C80_classes.
Example C80_nonvacuous : let derives := Nat.leb in
  safe_downcast derives CClass true 5%nat 3%nat 4%nat = Fault FAssert /\ safe_downcast derives CPointer true 5%nat 3%nat 4%nat = Fault FUB /\ safe_downcast derives CPointer true 5%nat 3%nat 2%nat = Done tt.
Proof. repeat split. Qed.
