(** Property C157: the functions for integers with bool. *)
From Coq Require Import ZArith.
From Verif Require Import Base CInt MathModel BitsetModel BitsetSpec BitsetBits BitsetProofs BitsetInt PropBitset BoolModel.
Open Scope nat_scope.

Definition number_of (b : bool) : N := if b then 1%N else 0%N.

(** ** Bit functions *)
(** With the index 0 they do what they say. *)
Theorem C157_bit_zero_partial : forall b, b_SetBit b false = true /\ b_ClearBit b false = false /\ b_ToggleBit b false = negb b /\ b_TestBit b false = b.
Proof. intros [|]; repeat split. Qed.
Print Assumptions C157_bit_zero_partial.
(** The index 1 passes the assertion (it is below BitCount<bool> = 8): setting that bit sets bit 0, and it is not set afterwards. *)
Theorem C157_bit_one_refuted : forall b, b_SetBit b true = true /\ b_TestBit (b_SetBit b true) true = false /\ b_TestBit (b_SetBit b true) false = true /\ b_ClearBit b true = b /\ b_ToggleBit b true = true.
Proof. intros [|]; repeat split. Qed.
Print Assumptions C157_bit_one_refuted.
(** Toggling that bit twice is not the identity. *)
Theorem C157_toggle_twice_refuted : b_ToggleBit (b_ToggleBit false true) true <> false.
Proof. discriminate. Qed.
Print Assumptions C157_toggle_twice_refuted.
Theorem C157_numbers : forall a b c n,
  b_CountBits a = Done (if a then 1 else 0) /\ b_NumberEquals a b c = (Bool.eqb a b || c) /\ b_IntegralPow a n = Done ((n =? 0) || a) /\ b_MultiplyAdd a b c = (a && b || c).
Proof.
  intros a b c n. split; [now destruct a|]. split; [now destruct a, b, c|]. split; [|now destruct a, b, c]. unfold b_IntegralPow, range. rewrite Nat.sub_0_r.
  assert (G : forall k m r, foreach (seq k m) (fun r _ => Done (to_bool (promoted r * promoted a))) r = Done (if m =? 0 then r else r && a)).
  { intros k m. revert k. induction m as [|m IH]; intros k r; [reflexivity|]. cbn [seq foreach bind]. rewrite IH. destruct m, r, a; reflexivity. }
  rewrite G. now destruct n, a.
Qed.
Print Assumptions C157_numbers.
(** A bool has one bit; its reversal is itself, not bit 7 of the byte. *)
Theorem C157_reverse : forall b, b_ReverseBits b = Done b.
Proof. intros [|]; reflexivity. Qed.
Print Assumptions C157_reverse.

(** ** Bitset *)
(** A bitset made from a bool has 8 bits, the first of which is the bool. *)
Lemma width_8 w : width w -> 8 <= w.
Proof. intros [->|[->|[->| ->]]]; apply Nat.leb_le; reflexivity. Qed.
Theorem C157_bitset_of_bool : forall w, width w -> forall v, repr w (b_of_bool v) (v :: repeat false 7) /\ b_To w (b_of_bool v) = Done v.
Proof.
  intros w Hw v. split.
  - destruct (of_int_repr_small w 8 (number_of v)) as (b & E & R); [lia | now apply width_8 | now destruct v|].
    replace (v :: repeat false 7) with (nbits 8 (number_of v)) by (now destruct v). replace (b_of_bool v) with b; [exact R|].
    unfold of_int in E. replace (8 <=? w) with true in E by (pose proof (width_8 w Hw); lia). apply (f_equal (fun o => match o with Done x => x | Fault _ => b end)) in E. cbn beta iota in E. rewrite <- E. unfold b_of_bool. f_equal. f_equal. destruct Hw as [->|[->|[->| ->]]], v; reflexivity.
  - unfold b_To. cbn [b_of_bool bitCount blocks length]. destruct v; reflexivity.
Qed.
Print Assumptions C157_bitset_of_bool.
(** To<bool> tells whether a bit is set... *)
Theorem C157_to_bool : forall w, width w -> forall b l, repr w b l -> b_To w b = if length l <=? 8 then Done (existsb (fun x => x) l) else Fault FAssert.
Proof.
  intros w Hw b l (HC & HL & HS & HB). assert (W8 := width_8 w Hw). unfold b_To. rewrite HC. destruct (Nat.leb_spec (length l) 8) as [L|L]; [|reflexivity]. cbn [assert bind].
  assert (EX : existsb (fun x => x) l = true <-> exists k, sbit l k = true).
  { rewrite existsb_exists. split.
    - intros (x & I & ->). destruct (In_nth l true false I) as (k & _ & K). now exists k.
    - intros (k & K). exists true. split; [|reflexivity]. rewrite <- K. unfold sbit. apply nth_In. destruct (Nat.lt_ge_cases k (length l)) as [Q|Q]; [exact Q|]. rewrite sbit_high in K by exact Q. discriminate. }
  destruct (blocks b) as [|x [|y r]].
  - cbn. f_equal. symmetry. apply not_true_is_false. rewrite EX. intros (k & K). rewrite <- HB in K. unfold lbit in K. destruct (k / w); discriminate.
  - cbn. f_equal. transitivity (to_boolN x); [now destruct (to_boolN x)|]. apply eq_true_iff_eq. rewrite EX. unfold to_boolN. rewrite negb_true_iff, N.eqb_neq. split.
    + intros NZ. exists (N.to_nat (N.log2 x)). assert (LW : (N.log2 x < N.of_nat w)%N) by (apply N.log2_lt_pow2; [lia | inversion HS; assumption]).
      rewrite <- HB. unfold lbit. rewrite Nat.div_small, Nat.mod_small by lia. cbn [nth]. rewrite N2Nat.id. now apply N.bit_log2.
    + intros (k & K) ->. rewrite <- HB in K. unfold lbit in K. destruct (k / w) as [|[|q]]; cbn [nth] in K; rewrite N.bits_0 in K; discriminate.
  - exfalso. cbn [length] in HL. destruct (nblocks_spec w (length l)) as [N1 N2]. nia.
Qed.
Print Assumptions C157_to_bool.
(** ... and not the number the bits denote, which a bool does not hold. *)
Theorem C157_to_value_refuted : forall w, width w -> forall b l, repr w b l -> length l <= 8 -> (2 <= s_value l)%N ->
  exists v, b_To w b = Done v /\ number_of v <> s_value l /\ To w 8 b = Done (s_value l).
Proof.
  intros w Hw b l R L V. rewrite (C157_to_bool w Hw b l R), (To_repr w b l 8 R). replace (length l <=? 8) with true by lia. eexists. split; [reflexivity|]. split; [|reflexivity]. destruct (existsb _ l); cbn [number_of]; lia.
Qed.
Print Assumptions C157_to_value_refuted.

(** AppendBits of a bool appends the number 0 or 1. *)
Lemma foreach_map {A B} (f : A -> B) (s : A -> nat -> outcome A) (t : B -> nat -> outcome B) :
  (forall a x, t (f a) x = (y <- s a x ;; Done (f y))) -> forall l a, foreach l t (f a) = (y <- foreach l s a ;; Done (f y)).
Proof. intros H l. induction l as [|x l IH]; intros a; [reflexivity|]. cbn [foreach]. rewrite H. destruct (s a x); [apply IH|reflexivity]. Qed.
Theorem C157_append : forall w, width w -> forall b v n, b_AppendBits w b v n = AppendBits w 8 b (number_of v) n.
Proof.
  intros w Hw b v n. assert (W8 := width_8 w Hw).
  assert (TR : forall u, trunc w (number_of u) = number_of u) by (intros u; unfold trunc; destruct u; [apply N.mod_small, N.pow_gt_1; lia | apply N.mod_0_l, N.pow_nonzero; discriminate]).
  unfold b_AppendBits, AppendBits. replace (w <? 8) with false by lia.
  assert (T : forall l (u : bool) m, (if 0 <? m then
      '(l, bits, n0) <- foreach (range 0 (ComputeBlockCount w m - 1)) (fun '(l, bits, n) (_ : nat) => Done (l ++ [if (bits : bool) then 1%N else 0%N], false, n - w)) (l, u, m) ;;
      one <- shlp w 1 n0 ;; let bits := to_boolN (N.land (if (bits : bool) then 1 else 0) (one - 1)) in Done (mkB (l ++ [if bits then 1%N else 0%N]) (bitCount b + n)) else Done (mkB l (bitCount b + n))) =
    (if 0 <? m then
      '(l, bits, n0) <- foreach (range 0 (ComputeBlockCount w m - 1)) (fun '(l, bits, n) (_ : nat) => Done (l ++ [trunc w bits], 0%N, n - w)) (l, number_of u, m) ;;
      one <- shlp w 1 n0 ;; Done (mkB (l ++ [trunc w (N.land bits (one - 1))]) (bitCount b + n)) else Done (mkB l (bitCount b + n)))).
  { intros l u m. destruct (0 <? m); [|reflexivity].
    rewrite (foreach_map (fun '(l, u, m) => (l, number_of u, m)) (fun '(l, bits, n) (_ : nat) => Done (l ++ [if (bits : bool) then 1%N else 0%N], false, n - w)) (fun '(l, bits, n) (_ : nat) => Done (l ++ [trunc w bits], 0%N, n - w)) ltac:(intros [[l' u'] m'] x; now rewrite TR) _ (l, u, m)).
    destruct (foreach _ _ _) as [[[l' u'] m']|e]; [|reflexivity]. cbn [bind]. destruct (shlp w 1 m') as [one|e]; [|reflexivity]. cbn [bind]. do 4 f_equal.
    assert (LE : exists z, N.land (if u' then 1 else 0) (one - 1) = number_of z).
    { exists (u' && N.odd (one - 1)). destruct u'; [|reflexivity]. rewrite N.land_comm. change 1%N with (N.ones 1) at 2. rewrite N.land_ones. change (2 ^ 1)%N with 2%N. rewrite <- N.bit0_mod, N.bit0_odd. now destruct (N.odd (one - 1)). }
    destruct LE as (z & LE). unfold number_of at 1. rewrite LE, TR. now destruct z. }
  destruct (negb (bitCount b mod w =? 0)).
  - destruct (vget _ _) as [x|e]; [|reflexivity]. cbn [bind]. rewrite TR. unfold number_of at 1. destruct (shl _ _ _) as [s|e]; [|reflexivity]. cbn [bind]. destruct (vset _ _ _) as [l|e]; [|reflexivity]. cbn [bind].
    assert (Z0 : 0 < w - bitCount b mod w) by (pose proof (Nat.mod_upper_bound (bitCount b) w); lia).
    rewrite T. set (r := w - bitCount b mod w) in *. replace (number_of (if r <? 8 then to_bool (Z.shiftr (promoted v) (Z.of_nat r)) else false)) with (if r <? 8 then N.shiftr (number_of v) (N.of_nat r) else 0%N); [reflexivity|].
    destruct (r <? 8); [|reflexivity]. destruct v; cbn [number_of promoted].
    + rewrite (N.shiftr_div_pow2 1), (Z.shiftr_div_pow2 1) by lia. rewrite N.div_small by (apply N.pow_gt_1; lia). rewrite Z.div_small; [reflexivity|]. split; [lia|]. apply Z.pow_gt_1; lia.
    + now rewrite N.shiftr_0_l, Z.shiftr_0_l.
  - cbn [bind]. apply T.
Qed.
Print Assumptions C157_append.

(** So what C11 says of numbers below 2^n holds: from one bit on, the bool and then zeros. *)
Theorem C157_append_bits : forall w, width w -> forall b l v n, repr w b l -> 0 < n -> (w < 32 \/ n <= room w (length l) \/ (length l + n) mod w <> 0) ->
  exists b', b_AppendBits w b v n = Done b' /\ repr w b' (l ++ v :: repeat false (n - 1)).
Proof.
  intros w Hw b l v n R Hn C. rewrite (C157_append w Hw). assert (B : forall j, 0 < j -> N.testbit (number_of v) (N.of_nat j) = false) by (intros j Hj; destruct v; [|apply N.bits_0]; apply N.bits_above_log2; cbn; lia).
  destruct (C11_append_partial w Hw 8 b l (number_of v) n ltac:(lia) R ltac:(now destruct v) ltac:(intros j Hj; apply B; lia) C) as (b' & E & R'). exists b'. split; [exact E|].
  replace (v :: repeat false (n - 1)) with (map (fun i => N.testbit (number_of v) (N.of_nat i)) (seq 0 n)); [exact R'|]. destruct n as [|n]; [lia|]. cbn [seq map Nat.sub]. rewrite Nat.sub_0_r. f_equal; [now destruct v|].
  assert (G : forall m k, map (fun i => N.testbit (number_of v) (N.of_nat i)) (seq (S k) m) = repeat false m) by (clear - B; induction m as [|m IH]; intros k; [reflexivity|]; cbn [seq map repeat]; rewrite B by lia; f_equal; apply IH). apply G.
Qed.
Print Assumptions C157_append_bits.

Example C157_example : b_To 8 (mkB [2]%N 3) = Done true /\ To 8 8 (mkB [2]%N 3) = Done 2%N /\ b_To 8 (mkB [0; 1]%N 9) = Fault FAssert /\ b_AppendBits 8 (mkB [2]%N 3) true 2 = Done (mkB [10]%N 5).
Proof. repeat split. Qed.
