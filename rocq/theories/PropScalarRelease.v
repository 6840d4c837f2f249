(** Property C126: functions on numbers, the iterator of Flags, SparsePtr and PrivateImpl compiled without assertions. *)
From Verif Require Import Base CInt MathModel MathProofs FlagsModel FlagsProofs SparseModel MovableModel PimplModel PropPimpl ScalarReleaseModel Release.
Open Scope Z_scope.

Lemma shift_in t bit : (0 <=? bit) && (bit <? wid t) = true -> shiftable t bit = true.
Proof. unfold shiftable, promote. destruct (Z.ltb_spec (wid t) 32); cbn [wid i32]; lia. Qed.

(** Calls whose assertions hold do the same without them. *)
Theorem C126_numbers : forall t n x,
  (SetBit t n x <> Fault FAssert -> rSetBit t n x = SetBit t n x) /\ (ClearBit t n x <> Fault FAssert -> rClearBit t n x = ClearBit t n x) /\
  (ToggleBit t n x <> Fault FAssert -> rToggleBit t n x = ToggleBit t n x) /\ (TestBit t n x <> Fault FAssert -> rTestBit t n x = TestBit t n x) /\
  (IsPow2 t n <> Fault FAssert -> rIsPow2 t n = IsPow2 t n) /\ (Align t n x <> Fault FAssert -> rAlign t n x = Align t n x) /\ (AlignPow2 t n x <> Fault FAssert -> rAlignPow2 t n x = AlignPow2 t n x).
Proof.
  intros t n x.
  assert (B : forall R (k : outcome R), (assert ((0 <=? x) && (x <? wid t)) ;;; k) <> Fault FAssert -> (require (shiftable t x) ;;; k) = (assert ((0 <=? x) && (x <? wid t)) ;;; k)).
  { intros R k. destruct ((0 <=? x) && (x <? wid t)) eqn:E; [|intros H; exfalso; now apply H]. intros _. rewrite (shift_in t x E). reflexivity. }
  split; [apply B|]. split; [apply B|]. split; [apply B|]. split; [apply B|]. split; [|split].
  - unfold IsPow2, rIsPow2. destruct (negb (n =? 0)); [reflexivity | intros H; exfalso; now apply H].
  - unfold Align, rAlign. destruct (0 <? x); [reflexivity | intros H; exfalso; now apply H].
  - unfold AlignPow2, rAlignPow2. destruct (Z.ltb_spec 0 x) as [X|X]; [|intros H; exfalso; now apply H]. cbn [assert bind]. unfold IsPow2. replace (negb (x =? 0)) with true by lia. cbn [assert bind].
    destruct (arith t (x - 1)) as [a1|f] eqn:A; cbn [bind].
    + destruct (Z.land x a1 =? 0); [reflexivity | intros H; exfalso; now apply H].
    + intros _. unfold arith in A. destruct (sgn (promote t)) eqn:S; [|discriminate]. destruct (in_range (promote t) (x - 1)) eqn:I; [discriminate|]. injection A as <-.
      destruct (arith t (n + x)) as [s|f] eqn:A1; cbn [bind]; [|unfold arith in A1; rewrite S in A1; destruct (in_range (promote t) (n + x)); congruence].
      destruct (arith t (s - 1)) as [s1|f] eqn:A2; cbn [bind]; [reflexivity|]. unfold arith in A2. rewrite S in A2. destruct (in_range (promote t) (s - 1)); congruence.
Qed.
Print Assumptions C126_numbers.
Lemma cast_same t a b : (forall i, 0 <= i < wid t -> Z.testbit a i = Z.testbit b i) -> 0 <= wid t -> cast t a = cast t b.
Proof.
  intros H W. unfold cast. replace (b mod 2 ^ wid t) with (a mod 2 ^ wid t); [reflexivity|].
  apply Z.bits_inj'. intros i I. destruct (Z.lt_ge_cases i (wid t)) as [L|L].
  - rewrite !Z.mod_pow2_bits_low by exact L. apply H. lia.
  - rewrite !Z.mod_pow2_bits_high by lia. reflexivity.
Qed.
Lemma bit_one i k : 0 <= k -> Z.testbit (Z.shiftl 1 k) i = (i =? k).
Proof. intros K. rewrite Z.shiftl_1_l. rewrite Z.pow2_bits_eqb by exact K. apply Z.eqb_sym. Qed.

(** A bit index outside the type is undefined from the width of the promoted type on. Below it, for types narrower than int, nothing is
    changed, and all tests of a negative number find the bit. *)
Theorem C126_bits_refuted : forall t n bit, In t int_types -> tmin t <= n <= tmax t -> bit < 0 \/ wid t <= bit ->
  (bit < 0 \/ 32 <= wid t \/ 32 <= bit -> rSetBit t n bit = Fault FUB /\ rClearBit t n bit = Fault FUB /\ rToggleBit t n bit = Fault FUB /\ rTestBit t n bit = Fault FUB) /\
  (wid t <= bit < 32 -> rSetBit t n bit = Done n /\ rClearBit t n bit = Done n /\ rToggleBit t n bit = Done n /\ rTestBit t n bit = Done (n <? 0)).
Proof.
  intros t n bit Ht Hn Hb. split.
  - intros C. assert (S : shiftable t bit = false). { unfold shiftable, promote. destruct (Z.ltb_spec (wid t) 32); cbn [wid i32]; lia. }
    unfold rSetBit, rClearBit, rToggleBit, rTestBit. rewrite S. repeat split; reflexivity.
  - intros C. assert (W : 0 < wid t < 32) by (cbn [In int_types unsigned_types signed_types app] in Ht; destruct Ht as [<-|[<-|[<-|[<-|[<-|[<-|[<-|[<-|[]]]]]]]]]; cbn in C |- *; lia).
    assert (P : promote t = i32) by (unfold promote; destruct (Z.ltb_spec (wid t) 32); [reflexivity | lia]).
    assert (S : shiftable t bit = true) by (unfold shiftable; rewrite P; cbn [wid i32]; lia).
    assert (I : cast t n = n) by (apply cast_id; [lia | unfold in_range; lia]).
    unfold rSetBit, rClearBit, rToggleBit, rTestBit. rewrite S, P. cbn [require bind].
    split; [|split; [|split]].
    + f_equal. rewrite <- I at 2. apply cast_same; [|lia]. intros i Hi. rewrite Z.lor_spec, bit_one by lia. replace (i =? bit) with false by lia. apply orb_false_r.
    + f_equal. rewrite <- I at 2. apply cast_same; [|lia]. intros i Hi. rewrite Z.land_spec, Z.lnot_spec, bit_one by lia. replace (i =? bit) with false by lia. apply andb_true_r.
    + f_equal. rewrite <- I at 2. apply cast_same; [|lia]. intros i Hi. rewrite Z.lxor_spec, bit_one by lia. replace (i =? bit) with false by lia. apply xorb_false_r.
    + f_equal. assert (Bn : Z.testbit n bit = (n <? 0)).
      { destruct (Z.ltb_spec n 0) as [N|N].
        - replace n with (Z.lnot (Z.lnot n)) by apply Z.lnot_involutive. rewrite Z.lnot_spec by lia. rewrite Z.bits_above_log2; [reflexivity | unfold Z.lnot; lia |].
          destruct (Z.eq_dec (Z.lnot n) 0) as [->|NZ]; [cbn; lia|]. apply Z.log2_lt_pow2; [unfold Z.lnot in *; lia|]. apply Z.lt_le_trans with (2 ^ wid t); [|apply Z.pow_le_mono_r; lia].
          unfold Z.lnot. unfold tmin in Hn. assert (2 ^ (wid t - 1) <= 2 ^ wid t) by (apply Z.pow_le_mono_r; lia). destruct (sgn t); lia.
        - apply Z.bits_above_log2; [exact N|]. destruct (Z.eq_dec n 0) as [->|NZ]; [cbn; lia|]. apply Z.log2_lt_pow2; [lia|]. apply Z.lt_le_trans with (2 ^ wid t); [|apply Z.pow_le_mono_r; lia].
          unfold tmax in Hn. assert (2 ^ (wid t - 1) <= 2 ^ wid t) by (apply Z.pow_le_mono_r; lia). destruct (sgn t); lia. }
      assert (C1 : forall i, 0 <= i < 32 -> Z.testbit (cast i32 (Z.shiftl 1 bit)) i = (i =? bit)).
      { intros i Hi. rewrite cast_low_any by (cbn; lia). apply bit_one. lia. }
      rewrite <- Bn. destruct (Z.testbit n bit) eqn:T.
      * apply negb_true_iff, Z.eqb_neq. intros Z0. assert (Q : Z.testbit (Z.land n (cast i32 (Z.shiftl 1 bit))) bit = false) by (rewrite Z0; apply Z.bits_0).
        rewrite Z.land_spec, T, C1, Z.eqb_refl in Q by lia. discriminate.
      * apply negb_false_iff, Z.eqb_eq. assert (N : 0 <= n) by lia. apply Z.bits_inj'. intros i Hi. rewrite Z.land_spec, Z.bits_0. destruct (Z.lt_ge_cases i 32) as [L|L].
        -- rewrite C1 by lia. destruct (Z.eqb_spec i bit) as [->|]; [rewrite T; reflexivity | apply andb_false_r].
        -- rewrite (Z.bits_above_log2 n); [reflexivity | exact N |]. destruct (Z.eq_dec n 0) as [->|NZ]; [cbn; lia|]. apply Z.log2_lt_pow2; [lia|]. apply Z.lt_le_trans with (2 ^ wid t); [|apply Z.pow_le_mono_r; lia].
           unfold tmax in Hn. assert (2 ^ (wid t - 1) <= 2 ^ wid t) by (apply Z.pow_le_mono_r; lia). destruct (sgn t); lia.
Qed.
Print Assumptions C126_bits_refuted.

Lemma arith_or t z : (exists r, arith t z = Done r) \/ arith t z = Fault FUB.
Proof. unfold arith. destruct (sgn (promote t)); [destruct (in_range (promote t) z)|]; eauto. Qed.
Lemma arith_value t z : In t int_types -> tmin t <= z <= tmax t -> arith t z = Done z.
Proof.
  intros Ht Hz. assert (I : in_range (promote t) z = true).
  { unfold in_range. assert (tmin (promote t) <= tmin t /\ tmax t <= tmax (promote t)); [|lia].
    cbn [In int_types unsigned_types signed_types app] in Ht. destruct Ht as [<-|[<-|[<-|[<-|[<-|[<-|[<-|[<-|[]]]]]]]]]; split; vm_compute; discriminate. }
  unfold arith. rewrite I. destruct (sgn (promote t)); [reflexivity|]. f_equal. apply cast_id; [|exact I].
  cbn [In int_types unsigned_types signed_types app] in Ht. destruct Ht as [<-|[<-|[<-|[<-|[<-|[<-|[<-|[<-|[]]]]]]]]]; reflexivity.
Qed.

(** Zero passes for a power of two; aligning to zero is a division by zero, or gives zero; aligning to another number than a power of two as if it
    were one gives, for the offset 1, something that is not a multiple. *)
Theorem C126_zero_refuted : forall t o, In t int_types -> tmin t <= o <= tmax t -> rIsPow2 t 0 = Done true /\ rAlign t o 0 = Fault FUB /\
  (wid t < 32 \/ o <> tmin t \/ sgn t = false -> rAlignPow2 t o 0 = Done 0).
Proof.
  intros t o Ht Ho.
  assert (A0 : arith t (o + 0) = Done o) by (rewrite Z.add_0_r; apply arith_value; [exact Ht | exact Ho]).
  assert (M : exists a1, arith t (0 - 1) = Done a1 /\ cast (promote t) (Z.lnot a1) = 0).
  { cbn [In int_types unsigned_types signed_types app] in Ht. destruct Ht as [<-|[<-|[<-|[<-|[<-|[<-|[<-|[<-|[]]]]]]]]]; eexists; split; reflexivity. }
  destruct M as (a1 & E1 & C1). split; [|split].
  - unfold rIsPow2. rewrite E1. reflexivity.
  - unfold rAlign. rewrite A0. cbn [bind]. destruct (arith_or t (o - 1)) as [(z & E)|E]; rewrite E; reflexivity.
  - intros C. unfold rAlignPow2. rewrite A0. cbn [bind]. assert (D : exists z, arith t (o - 1) = Done z).
    { cbn [In int_types unsigned_types signed_types app] in Ht. unfold arith, in_range. destruct Ht as [<-|[<-|[<-|[<-|[<-|[<-|[<-|[<-|[]]]]]]]]]; cbn [promote sgn wid u8 u16 u32 u64 i8 i16 i32 i64 Z.ltb Z.compare Pos.compare Pos.compare_cont] in *;
        unfold promote, tmin, tmax in *; cbn [sgn wid u8 u16 u32 u64 i8 i16 i32 i64 Z.ltb Z.compare Pos.compare Pos.compare_cont] in *; eauto;
        (destruct ((_ <=? o - 1) && (o - 1 <=? _)) eqn:Q; [eauto | exfalso]; apply andb_false_iff in Q; rewrite !Z.leb_gt in Q;
          change (2 ^ (32 - 1)) with 2147483648 in *; change (2 ^ (64 - 1)) with 9223372036854775808 in *; change (2 ^ (8 - 1)) with 128 in *; change (2 ^ (16 - 1)) with 32768 in *;
          change (2 ^ 8) with 256 in *; change (2 ^ 16) with 65536 in *; destruct C as [C|[C|C]]; first [lia | discriminate]). }
    destruct D as (z & ->). cbn [bind]. rewrite E1. cbn [bind]. rewrite C1, Z.land_0_r. f_equal. apply cast_id; [|unfold in_range]; cbn [In int_types unsigned_types signed_types app] in Ht; destruct Ht as [<-|[<-|[<-|[<-|[<-|[<-|[<-|[<-|[]]]]]]]]]; reflexivity.
Qed.
Print Assumptions C126_zero_refuted.
Theorem C126_not_a_power_refuted : forall t a, In t unsigned_types -> 0 < a <= tmax t -> rIsPow2 t a = Done false ->
  exists r, rAlignPow2 t 1 a = Done r /\ ~ (a | r).
Proof.
  intros t a Ht Ha P. assert (Ti : In t int_types) by (unfold int_types; apply in_or_app; now left).
  assert (T0 : tmin t = 0) by (cbn [In unsigned_types] in Ht; destruct Ht as [<-|[<-|[<-|[<-|[]]]]]; reflexivity).
  unfold rIsPow2 in P. rewrite arith_value in P by (trivial; lia). cbn [bind] in P. injection P as P. apply Z.eqb_neq in P.
  assert (S : exists s, arith t (1 + a) = Done s /\ arith t (s - 1) = Done a).
  { cbn [In unsigned_types] in Ht. destruct (Z.eq_dec a (tmax t)) as [->|N].
    - destruct Ht as [<-|[<-|[<-|[<-|[]]]]]; eexists; split; reflexivity.
    - exists (1 + a). rewrite arith_value by (trivial; lia). split; [reflexivity|]. replace (1 + a - 1) with a by lia. apply arith_value; [exact Ti | lia]. }
  destruct S as (s & E1 & E2). unfold rAlignPow2. rewrite E1. cbn [bind]. rewrite E2. cbn [bind]. rewrite arith_value by (trivial; lia). cbn [bind].
  eexists. split; [reflexivity|].
  assert (SP : a = Z.land a (a - 1) + Z.land a (Z.lnot (a - 1))).
  { rewrite Z.add_nocarry_lxor, Z.lxor_lor.
    - rewrite <- Z.land_lor_distr_r. rewrite Z.lor_lnot_diag. symmetry. apply Z.land_m1_r.
    - apply Z.bits_inj'. intros i Hi. rewrite !Z.land_spec, Z.lnot_spec, Z.bits_0 by exact Hi. destruct (Z.testbit a i), (Z.testbit (a - 1) i); reflexivity.
    - apply Z.bits_inj'. intros i Hi. rewrite !Z.land_spec, Z.lnot_spec, Z.bits_0 by exact Hi. destruct (Z.testbit a i), (Z.testbit (a - 1) i); reflexivity. }
  assert (L1 : 0 <= Z.land a (a - 1)) by (apply Z.land_nonneg; lia).
  assert (L2 : Z.land a (a - 1) <= a - 1).
  { apply Z.ldiff_le; [lia|]. apply Z.bits_inj'. intros i Hi. rewrite Z.ldiff_spec, Z.land_spec, Z.bits_0. destruct (Z.testbit a i), (Z.testbit (a - 1) i); reflexivity. }
  assert (W : 0 < wid t <= wid (promote t)) by (cbn [In unsigned_types] in Ht; destruct Ht as [<-|[<-|[<-|[<-|[]]]]]; cbn; lia).
  assert (V : Z.land a (cast (promote t) (Z.lnot (a - 1))) = Z.land a (Z.lnot (a - 1))).
  { apply Z.bits_inj'. intros i Hi. rewrite !Z.land_spec. destruct (Z.lt_ge_cases i (wid t)) as [L|L]; [rewrite cast_low_any by lia; reflexivity|].
    rewrite (Z.bits_above_log2 a i); [reflexivity | lia |]. apply Z.log2_lt_pow2; [lia|]. apply Z.lt_le_trans with (2 ^ wid t); [|apply Z.pow_le_mono_r; lia].
    assert (tmax t = 2 ^ wid t - 1) by (cbn [In unsigned_types] in Ht; destruct Ht as [<-|[<-|[<-|[<-|[]]]]]; reflexivity). lia. }
  rewrite V. rewrite cast_id by (try (unfold in_range; rewrite T0); lia). intros (k & K). assert (k = 0 \/ 1 <= k \/ k <= -1) as [->|[Q|Q]] by lia; [lia | |].
  - assert (a <= k * a) by (apply Z.le_trans with (1 * a); [lia | apply Z.mul_le_mono_nonneg_r; lia]). lia.
  - assert (k * a <= (-1) * a) by (apply Z.mul_le_mono_nonneg_r; lia). lia.
Qed.
Print Assumptions C126_not_a_power_refuted.

(** The iterator of Flags: the same while there are flags; incrementing at the end is undefined, and reading there gives no enumerator. *)
Theorem C126_iterator : forall mx auto v, 0 <= mx <= 63 -> 0 <= v < 2 ^ wid (BitField mx) -> v <> 0 ->
  r_iter_next mx v = iter_next mx v /\ r_iter_deref mx auto v = iter_deref mx auto v.
Proof.
  intros mx auto v Hm Hv Hn. unfold r_iter_next, iter_next, r_iter_deref, iter_deref. cbv zeta.
  destruct (bitfield_facts mx Hm) as (Ht & HS & HM & HW). assert (HR : in_range (BitField mx) v = true) by (unfold in_range, tmin, tmax; rewrite HS; lia).
  destruct (FindFirstBit_rt_spec (BitField mx) v (proj1 (unsigned_in _ Ht)) HR) as [(S1 & S2)|(S1 & _)]; [exfalso; apply Hn; now apply (zero_low (BitField mx)); [apply unsigned_in|..]|].
  set (r := Z.of_nat (FindFirstBit_rt (BitField mx) v)) in *. replace (r =? 0) with false by lia. cbn [negb assert bind].
  assert (C : cast u32 (r - 1) = r - 1) by (apply cast_id; [reflexivity | unfold in_range; change (tmin u32) with 0; change (tmax u32) with 4294967295; lia]).
  assert (P : 64 < 2 ^ wid (BitField mx)) by (apply Z.lt_le_trans with (2 ^ 8); [lia | apply Z.pow_le_mono_r; lia]).
  assert (C' : cast (BitField mx) (r - 1) = r - 1) by (apply cast_id; [lia | unfold in_range, tmin, tmax; rewrite HS; lia]).
  rewrite C, C'. split; [|reflexivity]. unfold rClearBit, ClearBit. rewrite shift_in by lia. replace ((0 <=? r - 1) && (r - 1 <? wid (BitField mx))) with true by lia. reflexivity.
Qed.
Print Assumptions C126_iterator.
Theorem C126_iterator_end_refuted : forall mx, 0 <= mx <= 63 -> r_iter_next mx 0 = Fault FUB /\ r_iter_deref mx true 0 = Done 4294967295 /\ r_iter_deref mx false 0 = Fault FUB.
Proof.
  intros mx Hm. unfold r_iter_next, r_iter_deref, FindFirstBit_rt, BitField. cbv zeta.
  destruct (32 <=? mx), (16 <=? mx), (8 <=? mx); repeat split; reflexivity.
Qed.
Print Assumptions C126_iterator_end_refuted.

(** A stride that is not an int: the step between elements is another one. *)
Theorem C126_stride : forall p s, 0 <= s < 2 ^ 64 -> (s <= tmax i32 -> Done (r_sp_of_size p s) = sp_of_size p s) /\
  (tmax i32 < s -> stride (r_sp_of_size p s) <> s /\ (stride (r_sp_of_size p s) - s) mod 2 ^ 32 = 0).
Proof.
  intros p s Hs. change (tmax i32) with 2147483647. split.
  - intros L. unfold sp_of_size. change (tmax i32) with 2147483647. replace (s <=? 2147483647) with true by lia. reflexivity.
  - intros L. unfold r_sp_of_size. cbn [stride sp_reset]. unfold cast. cbn [sgn wid i32]. change (2 ^ (32 - 1)) with 2147483648. change (2 ^ 32) with 4294967296.
    pose proof (Z.div_mod s 4294967296 ltac:(lia)) as D. pose proof (Z.mod_pos_bound s 4294967296 ltac:(lia)) as B.
    destruct (Z.ltb_spec (s mod 4294967296) 2147483648); (split; [lia|]).
    + replace (s mod 4294967296 - s) with (- (s / 4294967296) * 4294967296) by lia. apply Z.mod_mul. lia.
    + replace (s mod 4294967296 - 4294967296 - s) with ((- (s / 4294967296) - 1) * 4294967296) by lia. apply Z.mod_mul. lia.
Qed.
Print Assumptions C126_stride.

(** PrivateImpl::Emplace over an object: the object stays, without owner, whatever happens afterwards. *)
Definition lost {T} (s : state T) (a : nat) (v : T) : Prop := nth_error (heap s) a = Some (Some v) /\ forall h, ~ owns s h a.
Open Scope nat_scope.
Section Lost.
Context {T : Type} (assignable : bool) (broken : T -> T -> T).
Implicit Types (s : state T).
Lemma lost_live s a v h p : lost s a v -> live s h = Done p -> p <> Some a.
Proof.
  intros (_ & H) L ->. apply (H h). unfold live in L. unfold owns. destruct (nth_error (handles s) h) as [[q|]|]; congruence.
Qed.
Lemma lost_set s a v h x : lost s a v -> x <> Some (Some a) -> lost (set_handle s h x) a v.
Proof.
  intros (H1 & H2) X. split; [exact H1|]. intros k. unfold owns, set_handle. cbn [handles]. rewrite nth_error_upd. destruct ((k =? h) && (h <? length (handles s))); [congruence | apply H2].
Qed.
Lemma lost_push s a v p : lost s a v -> p <> Some a -> lost (push s p) a v.
Proof.
  intros (H1 & H2) X. split; [exact H1|]. intros k. unfold owns, push. cbn [handles]. destruct (Nat.lt_ge_cases k (length (handles s))) as [L|L].
  - rewrite nth_error_app1 by exact L. apply H2.
  - rewrite nth_error_app2 by exact L. destruct (k - length (handles s)) as [|[|?]]; cbn; congruence.
Qed.
Lemma lost_new s a v w s1 p : lost s a v -> new s w = (s1, p) -> lost s1 a v /\ Some p <> Some a.
Proof.
  intros (H1 & H2) [= <- <-]. assert (L : a < length (heap s)) by (apply nth_error_Some; congruence). split; [|intros [= E]; lia].
  split; [cbn [heap]; now rewrite nth_error_app1 by exact L | exact H2].
Qed.
Lemma lost_delete s a v p s1 : lost s a v -> p <> Some a -> delete s p = Done s1 -> lost s1 a v.
Proof.
  intros (H1 & H2) X. destruct p as [q|]; cbn [delete]; [|intros [= <-]; split; assumption]. unfold deref. destruct (nth_error (heap s) q) as [[w|]|]; cbn [bind]; try discriminate.
  intros [= <-]. split; [|exact H2]. cbn [heap]. rewrite nth_error_upd. destruct (Nat.eqb_spec a q) as [->|]; [congruence | exact H1].
Qed.
Lemma lost_new_handle s a v w t s' e : lost s a v -> New w t s = Done (s', e) -> lost s' a v.
Proof.
  intros L. unfold New. destruct t; [intros [= <- _]; exact L|]. destruct (new s w) as (s1, p) eqn:N. intros [= <- _]. destruct (lost_new _ _ _ _ _ _ L N) as (L1 & P). now apply lost_push.
Qed.
Lemma lost_step o s s' e a v : lost s a v -> r_pimpl_step assignable broken o s = Done (s', e) -> lost s' a v.
Proof.
  intros L. destruct o as [|w|w t|k t|k|h|h w t|h|h k t|h k]; cbn [r_pimpl_step step].
  - unfold NewNull. intros [= <- _]. apply lost_push; [exact L | discriminate].
  - unfold NewPtr. destruct (new s w) as (s1, p) eqn:N. intros [= <- _]. destruct (lost_new _ _ _ _ _ _ L N) as (L1 & P). now apply lost_push.
  - now apply lost_new_handle.
  - unfold Copy. destruct (live s k) as [q|]; cbn [bind]; [|discriminate]. destruct (deref s q) as [w|]; cbn [bind]; [|discriminate]. now apply lost_new_handle.
  - unfold Move. destruct (live s k) as [q|] eqn:V; cbn [bind]; [|discriminate]. unfold ptr_move_construct. intros [= <- _]. apply lost_push; [|exact (lost_live _ _ _ _ _ L V)]. apply lost_set; [exact L | discriminate].
  - unfold Destroy. destruct (live s h) as [q|] eqn:V; cbn [bind]; [|discriminate]. destruct (delete s q) as [s1|] eqn:D; cbn [bind]; [|discriminate]. intros [= <- _].
    apply lost_set; [|discriminate]. exact (lost_delete _ _ _ _ _ L (lost_live _ _ _ _ _ L V) D).
  - unfold rEmplace. destruct (live s h) as [q|] eqn:V; cbn [bind]; [|discriminate]. destruct t; [intros [= <- _]; exact L|]. destruct (new s w) as (s1, p) eqn:N. intros [= <- _].
    destruct (lost_new _ _ _ _ _ _ L N) as (L1 & P). apply lost_set; [exact L1 | unfold ptr_assign_value; congruence].
  - unfold Reset. destruct (live s h) as [q|] eqn:V; cbn [bind]; [|discriminate]. destruct (delete s q) as [s1|] eqn:D; cbn [bind]; [|discriminate]. intros [= <- _].
    apply lost_set; [|discriminate]. exact (lost_delete _ _ _ _ _ L (lost_live _ _ _ _ _ L V) D).
  - unfold AssignCopy. destruct (live s h) as [p|] eqn:V; cbn [bind]; [|discriminate]. destruct (live s k) as [q|] eqn:V2; cbn [bind]; [|discriminate]. destruct assignable.
    + destruct p as [b|].
      * destruct (deref s (Some b)) as [x|]; cbn [bind]; [|discriminate]. destruct (Deref k s) as [w|]; cbn [bind]; [|discriminate]. intros [= <- _].
        pose proof (lost_live _ _ _ _ _ L V) as P. destruct L as (L1 & L2). split; [|exact L2]. cbn [heap]. rewrite nth_error_upd. destruct (Nat.eqb_spec a b) as [->|]; [congruence | exact L1].
      * destruct (Deref k s) as [w|]; cbn [bind]; [|discriminate]. destruct t; [intros [= <- _]; exact L|]. destruct (new s w) as (s1, p) eqn:N. intros [= <- _].
        destruct (lost_new _ _ _ _ _ _ L N) as (L1 & P). apply lost_set; [exact L1 | unfold ptr_assign_value; congruence].
    + destruct (delete s p) as [s1|] eqn:D; cbn [bind]; [|discriminate]. pose proof (lost_delete _ _ _ _ _ L (lost_live _ _ _ _ _ L V) D) as L1.
      destruct (Deref k s1) as [w|]; cbn [bind]; [|discriminate]. destruct t; [intros [= <- _]; exact L1|]. destruct (new s1 w) as (s2, b) eqn:N. intros [= <- _].
      destruct (lost_new _ _ _ _ _ _ L1 N) as (L2 & P). apply lost_set; [exact L2 | unfold ptr_assign_value; congruence].
  - unfold AssignMove. destruct (live s h) as [p|] eqn:V; cbn [bind]; [|discriminate]. destruct (live s k) as [q|] eqn:V2; cbn [bind]; [|discriminate]. unfold ptr_move_assign. intros [= <- _].
    pose proof (lost_live _ _ _ _ _ L V). pose proof (lost_live _ _ _ _ _ L V2). apply lost_set; [apply lost_set; [exact L | congruence] | congruence].
Qed.
(** A history; an operation that throws has happened too. *)
Fixpoint r_pimpl_run (os : list (op T)) s : outcome (state T) :=
  match os with [] => Done s | o :: os => ' (s, _) <- r_pimpl_step assignable broken o s ;; r_pimpl_run os s end.
Theorem C126_emplace_refuted : forall s h w v, owned s -> nth_error (contents s) h = Some (Some (Some w)) ->
  exists s1 a, r_pimpl_step assignable broken (OEmplace h v false) s = Done (s1, Normal) /\ nth_error (contents s1) h = Some (Some (Some v)) /\
    forall os s', r_pimpl_run os s1 = Done s' -> lost s' a w.
Proof.
  intros s h w v (O1 & O2 & O3) C. unfold contents in C. rewrite nth_error_map in C. destruct (nth_error (handles s) h) as [[[a|]|]|] eqn:H; cbn [option_map view] in C; try discriminate.
  destruct (nth_error (heap s) a) as [[x|]|] eqn:A; try discriminate. injection C as ->. assert (La : a < length (heap s)) by (apply nth_error_Some; congruence). assert (Lh : h < length (handles s)) by (apply nth_error_Some; congruence).
  cbn [r_pimpl_step]. unfold rEmplace, live. rewrite H. cbn [bind new]. eexists. exists a. split; [reflexivity|]. unfold set_handle, ptr_assign_value. split.
  - unfold contents. cbn [heap handles]. rewrite nth_error_map, nth_error_upd, Nat.eqb_refl. replace (h <? length (handles s)) with true by lia. cbn [andb option_map view].
    rewrite nth_error_app2 by lia. rewrite Nat.sub_diag. reflexivity.
  - assert (L : lost (mkState (heap s ++ [Some v]) (upd (handles s) h (Some (Some (length (heap s)))))) a w).
    { split; [cbn [heap]; now rewrite nth_error_app1 by exact La|]. intros k. unfold owns. cbn [handles]. rewrite nth_error_upd. destruct (Nat.eqb_spec k h) as [->|N].
      - replace (h <? length (handles s)) with true by lia. cbn [andb]. intros [= E]. lia.
      - cbn [andb]. intros E. exact (N (O2 k h a E H)). }
    assert (K : forall os s0, lost s0 a w -> forall s', r_pimpl_run os s0 = Done s' -> lost s' a w); [|intros os s'; exact (K os _ L s')].
    clear L. intros os. induction os as [|o os IH]; intros s0 L s' R; cbn [r_pimpl_run] in R; [injection R as <-; exact L|].
    destruct (r_pimpl_step assignable broken o s0) as [(s2, e)|f] eqn:E; cbn [bind] in R; [|discriminate]. exact (IH s2 (lost_step _ _ _ _ _ _ L E) s' R).
Qed.
(** Everything else is as with assertions. *)
Theorem C126_pimpl : forall o s, step assignable broken o s <> Fault FAssert -> r_pimpl_step assignable broken o s = step assignable broken o s.
Proof.
  intros o s. destruct o; try reflexivity. cbn [r_pimpl_step step]. unfold rEmplace, Emplace. destruct (live s h) as [[p|]|]; cbn [bind assert]; [|reflexivity|reflexivity]. intros H; exfalso; now apply H.
Qed.
End Lost.
Print Assumptions C126_emplace_refuted.
Print Assumptions C126_pimpl.
Open Scope Z_scope.
Example C126_nonvacuous : rSetBit u8 5 9 = Done 5 /\ rTestBit i8 (-1) 20 = Done true /\ rSetBit u32 5 32 = Fault FUB /\ rIsPow2 u32 6 = Done false /\ rAlignPow2 u32 1 6 = Done 2 /\
  rAlignPow2 u64 77 0 = Done 0 /\ rSetBit u8 5 7 = Done 133 /\ r_iter_next 8 6 = Done 4 /\ r_iter_deref 8 true 6 = Done 1 /\ stride (r_sp_of_size 0 4294967300) = 4 /\
  r_pimpl_run true (fun x _ => x) [ONew 1 false; OEmplace 0 2 false; ODestroy 0] (mkState [] []) = Done (mkState [Some 1; None] [None]).
Proof. vm_compute. repeat split. Qed.
