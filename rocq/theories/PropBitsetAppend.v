(** C155: AppendBits of signed integers. *)
From Coq Require Import ZArith.
From Verif Require Import Base BitsetModel BitsetBits BitsetProofs BitsetAppendModel PropBitset.
Open Scope nat_scope.

(** The low n bits agree. *)
Definition agree (n : nat) (z : Z) (v : N) : Prop := forall j, j < n -> Z.testbit z (Z.of_nat j) = N.testbit v (N.of_nat j).

Lemma block_bit w z i : N.testbit (to_block w z) (N.of_nat i) = (i <? w) && Z.testbit z (Z.of_nat i).
Proof.
  unfold to_block. assert (P : (0 < 2 ^ Z.of_nat w)%Z) by (apply Z.pow_pos_nonneg; lia). pose proof (Z.mod_pos_bound z _ P) as B.
  rewrite <- N2Z.inj_testbit, Z2N.id, nat_N_Z by lia. destruct (Nat.ltb_spec i w) as [L|L].
  - now rewrite Z.mod_pow2_bits_low by lia.
  - now rewrite Z.mod_pow2_bits_high by lia.
Qed.
Lemma trunc_bit w v i : N.testbit (trunc w v) (N.of_nat i) = (i <? w) && N.testbit v (N.of_nat i).
Proof.
  unfold trunc. destruct (Nat.ltb_spec i w) as [L|L].
  - now rewrite N.mod_pow2_bits_low by lia.
  - now rewrite N.mod_pow2_bits_high by lia.
Qed.
Lemma N_bits_nat a b : (forall i, N.testbit a (N.of_nat i) = N.testbit b (N.of_nat i)) -> a = b.
Proof. intros H. apply N.bits_inj. intros i. rewrite <- (N2Nat.id i). apply H. Qed.
Lemma block_agree w z v : agree w z v -> to_block w z = trunc w v.
Proof. intros H. apply N_bits_nat. intros i. rewrite block_bit, trunc_bit. destruct (Nat.ltb_spec i w) as [L|L]; [cbn; now apply H | reflexivity]. Qed.
Lemma agree_le n m z v : m <= n -> agree n z v -> agree m z v.
Proof. intros L H j Hj. apply H. lia. Qed.
Lemma agree_shift n k z v : agree n z v -> agree (n - k) (Z.shiftr z (Z.of_nat k)) (N.shiftr v (N.of_nat k)).
Proof.
  intros H j Hj. rewrite Z.shiftr_spec, N.shiftr_spec by lia. replace (Z.of_nat j + Z.of_nat k)%Z with (Z.of_nat (j + k)) by lia. replace (N.of_nat j + N.of_nat k)%N with (N.of_nat (j + k)) by lia. apply H. lia.
Qed.
Lemma agree_mod tw z : agree tw z (Z.to_N (z mod 2 ^ Z.of_nat tw)).
Proof. intros j Hj. change (Z.to_N (z mod 2 ^ Z.of_nat tw)) with (to_block tw z). rewrite block_bit. now replace (j <? tw) with true by lia. Qed.
Lemma agree_nonneg n z : (0 <= z)%Z -> agree n z (Z.to_N z).
Proof. intros H j Hj. rewrite <- N2Z.inj_testbit, Z2N.id, nat_N_Z by lia. reflexivity. Qed.

Lemma signed_congruent w tw z : 0 < tw -> w <= tw -> to_block w (to_signed tw z) = to_block w z.
Proof.
  intros H0 H. unfold to_block, to_signed. f_equal. set (h := (2 ^ (Z.of_nat tw - 1))%Z).
  assert (P : (0 < 2 ^ Z.of_nat tw)%Z) by (apply Z.pow_pos_nonneg; lia).
  pose proof (Z.div_mod (z + h) (2 ^ Z.of_nat tw) ltac:(lia)) as D. set (q := ((z + h) / 2 ^ Z.of_nat tw)%Z) in *.
  replace ((z + h) mod 2 ^ Z.of_nat tw - h)%Z with (z + (- q) * 2 ^ Z.of_nat tw)%Z by lia.
  replace (2 ^ Z.of_nat tw)%Z with (2 ^ Z.of_nat (tw - w) * 2 ^ Z.of_nat w)%Z by (rewrite <- Z.pow_add_r by lia; f_equal; lia).
  rewrite Z.mul_assoc. apply Z.mod_add. apply Z.pow_nonzero; lia.
Qed.
Lemma signed_small tw z : 0 < tw -> (0 <= z < 2 ^ (Z.of_nat tw - 1))%Z -> to_signed tw z = z.
Proof.
  intros H0 H. unfold to_signed. assert (E : (2 ^ Z.of_nat tw = 2 * 2 ^ (Z.of_nat tw - 1))%Z) by (rewrite <- Z.pow_succ_r by lia; f_equal; lia). rewrite Z.mod_small by lia. lia.
Qed.

Lemma mask_ones w n one : shlp w 1 n = Done one -> (one - 1)%N = N.ones (N.of_nat n).
Proof.
  unfold shlp. destruct (Nat.ltb_spec n (pw w)) as [L|L]; [|discriminate]. intros E. injection E as <-. rewrite N.shiftl_1_l, N.mod_small by (apply N.pow_lt_mono_r; lia). now rewrite N.ones_equiv, N.sub_1_r.
Qed.
Lemma masked_agree w n z v : agree n z v -> agree w (Z.land z (Z.of_N (N.ones (N.of_nat n)))) (N.land v (N.ones (N.of_nat n))).
Proof.
  intros H j Hj. rewrite Z.land_spec, N.land_spec. replace (Z.of_nat j) with (Z.of_N (N.of_nat j)) by lia. rewrite N2Z.inj_testbit. destruct (Nat.lt_ge_cases j n) as [L|L].
  - rewrite nat_N_Z. now rewrite (H j L).
  - rewrite N.ones_spec_high by lia. now rewrite !andb_false_r.
Qed.
Lemma masked_bound n z : (0 <= Z.land z (Z.of_N (N.ones (N.of_nat n))) < 2 ^ Z.of_nat n)%Z.
Proof.
  rewrite N.ones_equiv, N2Z.inj_pred by (apply N.neq_0_lt_0, N.pow_nonzero; lia). rewrite N2Z.inj_pow, nat_N_Z. change (Z.of_N 2) with 2%Z.
  rewrite <- Z.ones_equiv, Z.land_ones by lia. apply Z.mod_pos_bound, Z.pow_pos_nonneg; lia.
Qed.

(** The rest of AppendBits, from the blocks of the first part on. *)
Definition rest_unsigned (w tw : nat) (l : list N) (bits : N) (n count : nat) : outcome bitset :=
  if 0 <? n then
    '(l, bits, n) <-
      foreach (range 0 (ComputeBlockCount w n - 1)) (fun '(l, bits, n) _ =>
        Done (l ++ [trunc w bits], (if w <? tw then N.shiftr bits (N.of_nat w) else 0%N), n - w)) (l, bits, n) ;;
    one <- shlp w 1 n ;;
    Done (mkB (l ++ [trunc w (N.land bits (one - 1))]) count)
  else Done (mkB l count).
Definition rest_signed (w tw : nat) (l : list N) (bits : Z) (n count : nat) : outcome bitset :=
  if 0 <? n then ' (l, bits, n) <- signed_loop w tw (ComputeBlockCount w n) (l, bits, n) ;; signed_last w tw l bits n count else Done (mkB l count).

Lemma loop_agree w tw L : forall l z v n, (w < tw \/ L = []) -> length L * w <= n -> agree n z v ->
  exists l' z' v', foreach L (fun '(l, bits, n) _ => Done (l ++ [to_block w bits], (if w <? tw then Z.shiftr bits (Z.of_nat w) else 0%Z), n - w)) (l, z, n) = Done (l', z', n - length L * w) /\
    foreach L (fun '(l, bits, n) _ => Done (l ++ [trunc w bits], (if w <? tw then N.shiftr bits (N.of_nat w) else 0%N), n - w)) (l, v, n) = Done (l', v', n - length L * w) /\ agree (n - length L * w) z' v'.
Proof.
  induction L as [|i L IH]; intros l z v n HT HL HA.
  - exists l, z, v. cbn. rewrite Nat.sub_0_r. auto.
  - destruct HT as [HT|HT]; [|discriminate]. cbn [length] in *. cbn [foreach bind]. replace (w <? tw) with true by lia. rewrite (block_agree w z v) by (apply (agree_le n); [lia | exact HA]).
    destruct (IH (l ++ [trunc w v]) (Z.shiftr z (Z.of_nat w)) (N.shiftr v (N.of_nat w)) (n - w)) as (l' & z' & v' & E1 & E2 & A); [now left | lia | now apply agree_shift|].
    replace (w <? tw) with true in E1, E2 by lia. exists l', z', v'. replace (n - S (length L) * w) with (n - w - length L * w) by lia. auto.
Qed.

Lemma count_bound w n : width w -> 0 < n -> (ComputeBlockCount w n - 1) * w < n.
Proof.
  intros Hw Hn. pose proof (width_pos w Hw) as H0. unfold ComputeBlockCount, GetBlockIndex. rewrite (GetBitIndex_mod w). pose proof (Nat.div_mod n w ltac:(lia)) as D. pose proof (Nat.mod_upper_bound n w ltac:(lia)) as B. remember (n / w) as q eqn:Eq. remember (n mod w) as r eqn:Er. clear Eq Er. destruct (Nat.eqb_spec r 0) as [->|R].
  - destruct q as [|q]; [lia|]. replace (S q + 0 - 1) with q by lia. rewrite Nat.mul_succ_r in D. rewrite (Nat.mul_comm q w). lia.
  - replace (q + 1 - 1) with q by lia. rewrite (Nat.mul_comm q w). lia.
Qed.
Lemma rest_agree w tw l z v n c : width w -> 0 < tw -> agree n z v -> (w < tw \/ n <= w) ->
  (w <= tw \/ n < tw) -> rest_signed w tw l z n c = rest_unsigned w tw l v n c.
Proof.
  intros Hw Ht HA HT HC. unfold rest_signed, rest_unsigned. destruct (Nat.ltb_spec 0 n) as [Hn|Hn]; [|reflexivity]. pose proof (count_bound w n Hw Hn) as CB.
  unfold signed_loop. set (L := range 0 (ComputeBlockCount w n - 1)). assert (LL : length L = ComputeBlockCount w n - 1) by (unfold L, range; rewrite seq_length; lia).
  destruct (loop_agree w tw L l z v n) as (l' & z' & v' & -> & -> & A); [| rewrite LL; lia | exact HA |].
  { destruct HT as [HT|HT]; [now left|right]. unfold L, range. replace (ComputeBlockCount w n - 1 - 0) with 0 by nia. reflexivity. }
  cbn [bind]. unfold signed_last. destruct (shlp w 1 (n - length L * w)) as [one|f] eqn:E; [|reflexivity]. cbn [bind]. rewrite (mask_ones _ _ _ E). do 4 f_equal.
  set (n' := n - length L * w) in *. transitivity (to_block w (Z.land z' (Z.of_N (N.ones (N.of_nat n'))))); [|apply block_agree, masked_agree, A].
  destruct HC as [HC|HC]; [now apply signed_congruent|]. f_equal. apply signed_small; [exact Ht|]. pose proof (masked_bound n' z') as B. assert (2 ^ Z.of_nat n' <= 2 ^ (Z.of_nat tw - 1))%Z by (apply Z.pow_le_mono_r; unfold n'; lia). lia.
Qed.

(** Values that are not negative. *)
Lemma block_of_N w v : to_block w (Z.of_N v) = trunc w v.
Proof. apply block_agree. intros j _. now rewrite <- nat_N_Z, N2Z.inj_testbit. Qed.
Lemma shiftr_of_N v k : Z.shiftr (Z.of_N v) (Z.of_nat k) = Z.of_N (N.shiftr v (N.of_nat k)).
Proof. rewrite Z.shiftr_div_pow2, N.shiftr_div_pow2, N2Z.inj_div, N2Z.inj_pow, nat_N_Z by lia. reflexivity. Qed.
Lemma land_of_N a b : Z.of_N (N.land a b) = Z.land (Z.of_N a) (Z.of_N b).
Proof. apply Z.bits_inj'. intros k Hk. rewrite <- (Z2N.id k) by lia. rewrite Z.land_spec, !N2Z.inj_testbit. apply N.land_spec. Qed.
Lemma shiftr_le v k : (N.shiftr v k <= v)%N.
Proof. rewrite N.shiftr_div_pow2. apply N.div_le_upper_bound; [apply N.pow_nonzero; lia|]. rewrite <- (N.mul_1_l v) at 1. apply N.mul_le_mono_r. pose proof (N.pow_nonzero 2 k ltac:(lia)). lia. Qed.
Lemma land_le a b : (N.land a b <= a)%N.
Proof.
  assert (E : a = (N.land a b + N.ldiff a b)%N); [|lia]. rewrite N.add_nocarry_lxor.
  - apply N.bits_inj. intros i. rewrite N.lxor_spec, N.land_spec, N.ldiff_spec. destruct (N.testbit a i), (N.testbit b i); reflexivity.
  - apply N.bits_inj. intros i. rewrite !N.land_spec, N.ldiff_spec, N.bits_0. destruct (N.testbit a i), (N.testbit b i); reflexivity.
Qed.
Lemma loop_of_N w tw L : forall l v n,
  exists l' v' n', foreach L (fun '(l, bits, n) _ => Done (l ++ [to_block w bits], (if w <? tw then Z.shiftr bits (Z.of_nat w) else 0%Z), n - w)) (l, Z.of_N v, n) = Done (l', Z.of_N v', n') /\
    foreach L (fun '(l, bits, n) _ => Done (l ++ [trunc w bits], (if w <? tw then N.shiftr bits (N.of_nat w) else 0%N), n - w)) (l, v, n) = Done (l', v', n') /\ (v' <= v)%N.
Proof.
  induction L as [|i L IH]; intros l v n; [exists l, v, n; cbn; repeat split; lia|]. cbn [foreach bind]. rewrite block_of_N.
  assert (E : (if w <? tw then Z.shiftr (Z.of_N v) (Z.of_nat w) else 0%Z) = Z.of_N (if w <? tw then N.shiftr v (N.of_nat w) else 0%N)) by (destruct (w <? tw); [apply shiftr_of_N | reflexivity]).
  rewrite E. destruct (IH (l ++ [trunc w v]) (if w <? tw then N.shiftr v (N.of_nat w) else 0%N) (n - w)) as (l' & v' & n' & E1 & E2 & B). exists l', v', n'. split; [exact E1|]. split; [exact E2|].
  pose proof (shiftr_le v (N.of_nat w)). destruct (w <? tw); lia.
Qed.
Lemma rest_of_N w tw l v n c : 0 < tw -> (Z.of_N v < 2 ^ (Z.of_nat tw - 1))%Z -> rest_signed w tw l (Z.of_N v) n c = rest_unsigned w tw l v n c.
Proof.
  intros H0 B. unfold rest_signed, rest_unsigned, signed_loop. destruct (0 <? n); [|reflexivity]. destruct (loop_of_N w tw (range 0 (ComputeBlockCount w n - 1)) l v n) as (l' & v' & n' & -> & -> & LE).
  cbn [bind]. unfold signed_last. destruct (shlp w 1 n') as [one|f]; [|reflexivity]. cbn [bind]. replace (Z.land (Z.of_N v') (Z.of_N (one - 1))) with (Z.of_N (N.land v' (one - 1))) by (apply land_of_N). pose proof (land_le v' (one - 1)). rewrite signed_small by lia. now rewrite block_of_N.
Qed.

(** A value that is not negative is appended as the unsigned one. *)
Theorem C155_nonnegative : forall w tw b z n, 0 < tw -> (0 <= z < 2 ^ (Z.of_nat tw - 1))%Z -> AppendSigned w tw b z n = AppendBits w tw b (Z.to_N z) n.
Proof.
  intros w tw b z n H0 Hz. rewrite <- (Z2N.id z) at 1 by lia. assert (B : (Z.of_N (Z.to_N z) < 2 ^ (Z.of_nat tw - 1))%Z) by (rewrite Z2N.id; lia). generalize dependent (Z.to_N z). clear z Hz. intros v B.
  unfold AppendSigned, AppendBits, signed_head. destruct (bitCount b mod w =? 0); cbn [negb].
  - cbn [bind]. apply (rest_of_N w tw); assumption.
  - destruct (vget (blocks b) (length (blocks b) - 1)) as [x|f]; [|reflexivity]. cbn [bind]. rewrite block_of_N. destruct (shl w (trunc w v) (bitCount b mod w)) as [s|f]; [|reflexivity]. cbn [bind].
    destruct (vset (blocks b) (length (blocks b) - 1) (N.lor x s)) as [l|f]; [|reflexivity]. cbn [bind]. set (r := w - bitCount b mod w). rewrite shiftr_of_N.
    pose proof (shiftr_le v (N.of_nat r)). destruct (r <? tw).
    + apply (rest_of_N w tw); lia.
    + apply (rest_of_N w tw l 0%N); lia.
Qed.
Print Assumptions C155_nonnegative.

(** A negative value is appended as its representation in two's complement, if the open block takes no more bits than the type has, or, with
    all blocks full, if the type is as wide as a block or not all of its bits are appended. *)
Definition fits (w tw len n : nat) : Prop := if len mod w =? 0 then w <= tw \/ n < tw else room w len <= tw.
Theorem C155_negative_partial : forall w tw b z n, width w -> 0 < tw -> n <= tw -> fits w tw (bitCount b) n ->
  AppendSigned w tw b z n = AppendBits w tw b (Z.to_N (z mod 2 ^ Z.of_nat tw)) n.
Proof.
  intros w tw b z n Hw H0 Hn HF. pose proof (width_pos w Hw) as Hp. pose proof (agree_mod tw z) as HA. set (v := Z.to_N (z mod 2 ^ Z.of_nat tw)) in *. clearbody v.
  unfold AppendSigned, AppendBits, signed_head, fits in *. pose proof (Nat.mod_upper_bound (bitCount b) w ltac:(lia)) as MB. destruct (Nat.eqb_spec (bitCount b mod w) 0) as [E|E]; cbn [negb].
  - cbn [bind]. apply (rest_agree w tw); auto; [now apply (agree_le tw)|lia].
  - assert (RM : room w (bitCount b) = w - bitCount b mod w) by (unfold room; apply Nat.mod_small; lia). rewrite RM in HF. set (r := w - bitCount b mod w) in *.
    destruct (vget (blocks b) (length (blocks b) - 1)) as [x|f]; [|reflexivity]. cbn [bind].
    assert (ES : shl w (to_block w z) (bitCount b mod w) = shl w (trunc w v) (bitCount b mod w)).
    { unfold shl. destruct (bitCount b mod w <? pw w); [|reflexivity]. f_equal. apply N_bits_nat. intros i. rewrite !trunc_bit. destruct (Nat.ltb_spec i w) as [L|L]; [cbn [andb]|reflexivity].
      destruct (Nat.lt_ge_cases i (bitCount b mod w)) as [Q|Q]; [now rewrite !N.shiftl_spec_low by lia|]. rewrite !N.shiftl_spec_high' by lia. replace (N.of_nat i - N.of_nat (bitCount b mod w))%N with (N.of_nat (i - bitCount b mod w)) by lia.
      rewrite block_bit, trunc_bit. f_equal. apply HA. unfold r in HF. lia. }
    rewrite ES. destruct (shl w (trunc w v) (bitCount b mod w)) as [s|f]; [|reflexivity]. cbn [bind]. destruct (vset (blocks b) (length (blocks b) - 1) (N.lor x s)) as [l|f]; [|reflexivity]. cbn [bind].
    destruct (Nat.ltb_spec r tw) as [L|L].
    + apply (rest_agree w tw); auto; [apply (agree_le (tw - r)); [lia | now apply agree_shift] | lia | lia].
    + replace (n - Nat.min r n) with 0 by lia. reflexivity.
Qed.
Print Assumptions C155_negative_partial.
(** With C11: exactly the low n bits are appended. *)
Theorem C155_appended_partial : forall w, width w -> forall tw b l z n, 0 < tw -> n <= tw -> repr w b l -> fits w tw (length l) n ->
  (forall j, n <= j < room w (length l) -> Z.testbit z (Z.of_nat j) = false) ->
  (w < 32 \/ n <= room w (length l) \/ (length l + n) mod w <> 0) ->
  exists b', AppendSigned w tw b z n = Done b' /\ repr w b' (l ++ map (fun i => Z.testbit z (Z.of_nat i)) (seq 0 n)).
Proof.
  intros w Hw tw b l z n H0 Hn R HF HS HC. pose proof (width_pos w Hw) as Hp. pose proof (agree_mod tw z) as HA. rewrite C155_negative_partial by (try assumption; now rewrite (proj1 R)). set (v := Z.to_N (z mod 2 ^ Z.of_nat tw)) in *.
  assert (HR : room w (length l) <= tw). { unfold fits in HF. destruct (Nat.eqb_spec (length l mod w) 0) as [E|E]; [|exact HF]. unfold room. rewrite E, Nat.sub_0_r, Nat.mod_same by lia. lia. }
  assert (HV : (v < 2 ^ N.of_nat tw)%N). { unfold v. assert (P : (0 < 2 ^ Z.of_nat tw)%Z) by (apply Z.pow_pos_nonneg; lia). pose proof (Z.mod_pos_bound z _ P). apply N2Z.inj_lt. rewrite Z2N.id, N2Z.inj_pow, nat_N_Z by lia. lia. }
  destruct (C11_append_partial w Hw tw b l v n H0 R HV) as (b' & E & R'); [intros j Hj; rewrite <- HA by lia; now apply HS | exact HC|].
  exists b'. split; [exact E|]. replace (map (fun i => Z.testbit z (Z.of_nat i)) (seq 0 n)) with (map (fun i => N.testbit v (N.of_nat i)) (seq 0 n)); [exact R'|]. apply map_ext_in. intros i Hi. apply in_seq in Hi. symmetry. apply HA. lia.
Qed.
Print Assumptions C155_appended_partial.

(** A whole negative value of a type smaller than the block, on a bitset whose blocks are full: the block above the size is all ones. *)
Theorem C155_stray_refuted : forall w, width w -> forall tw b l z, 0 < tw < w -> repr w b l -> length l mod w = 0 -> (- 2 ^ (Z.of_nat tw - 1) <= z < 0)%Z ->
  exists b', AppendSigned w tw b z tw = Done b' /\ bitCount b' = length l + tw /\ forall i, tw <= i < w -> N.testbit (nth (length l / w) (blocks b') 0%N) (N.of_nat i) = true.
Proof.
  intros w Hw tw b l z H0 R E Hz. pose proof (width_pos w Hw) as Hp. destruct R as (R1 & R2 & _). unfold AppendSigned, signed_head. rewrite R1, E. cbn [Nat.eqb negb bind]. replace (0 <? tw) with true by lia.
  assert (CB : ComputeBlockCount w tw = 1). { pose proof (count_bound w tw Hw ltac:(lia)) as CB. unfold ComputeBlockCount, GetBlockIndex. rewrite (GetBitIndex_mod w), Nat.div_small, Nat.mod_small by lia. now replace (tw =? 0) with false by lia. }
  rewrite CB. unfold signed_loop. cbn [Nat.sub range seq foreach bind]. unfold signed_last.
  assert (S1 : exists one, shlp w 1 tw = Done one) by (unfold shlp, pw; replace (tw <? Nat.max w 32) with true by lia; eauto). destruct S1 as (one & S1). rewrite S1. cbn [bind]. eexists. split; [reflexivity|]. split; [reflexivity|].
  intros i Hi. cbn [blocks]. assert (LN : length (blocks b) = length l / w). { rewrite R2. rewrite <- (ComputeBlockCount_nblocks w). unfold ComputeBlockCount, GetBlockIndex. rewrite (GetBitIndex_mod w), E. cbn [Nat.eqb]. lia. }
  rewrite app_nth2, <- LN, Nat.sub_diag by lia. cbn [nth]. rewrite block_bit. replace (i <? w) with true by lia. cbn [andb]. rewrite (mask_ones _ _ _ S1).
  assert (EZ : to_signed tw (Z.land z (Z.of_N (N.ones (N.of_nat tw)))) = z).
  { rewrite N.ones_equiv, N2Z.inj_pred by (apply N.neq_0_lt_0, N.pow_nonzero; lia). rewrite N2Z.inj_pow, nat_N_Z. change (Z.of_N 2) with 2%Z. rewrite <- Z.ones_equiv, Z.land_ones by lia.
    assert (EH : (2 ^ Z.of_nat tw = 2 * 2 ^ (Z.of_nat tw - 1))%Z) by (rewrite <- Z.pow_succ_r by lia; f_equal; lia). unfold to_signed. rewrite Z.add_mod_idemp_l by lia. rewrite Z.mod_small by lia. lia. }
  rewrite EZ. assert (HB : (2 ^ (Z.of_nat tw - 1) <= 2 ^ Z.of_nat i)%Z) by (apply Z.pow_le_mono_r; lia). rewrite <- (Z.lnot_involutive z), Z.lnot_spec by lia. apply negb_true_iff. apply Z.bits_above_log2; [unfold Z.lnot; lia|].
  destruct (Z.eq_dec (Z.lnot z) 0) as [->|NZ]; [cbn; lia|]. apply Z.log2_lt_pow2; unfold Z.lnot in *; lia.
Qed.
Print Assumptions C155_stray_refuted.
(** The same on a block that is open and has more room than the type has bits. *)
Theorem C155_open_block_refuted : forall w, width w -> forall tw b l z n b', 0 < tw -> repr w b l -> tw < room w (length l) -> (- 2 ^ (Z.of_nat tw - 1) <= z < 0)%Z -> n <= tw ->
  AppendSigned w tw b z n = Done b' -> forall i, length l mod w + tw <= i < w -> N.testbit (nth (length l / w) (blocks b') 0%N) (N.of_nat i) = true.
Proof.
  intros w Hw tw b l z n b' H0 R HR Hz Hn E i Hi. pose proof (width_pos w Hw) as Hp. destruct R as (R1 & R2 & _). pose proof (Nat.mod_upper_bound (length l) w ltac:(lia)) as MB.
  assert (NZ : length l mod w <> 0) by (intros Q; unfold room in HR; rewrite Q, Nat.sub_0_r, Nat.mod_same in HR by lia; lia). assert (RM : room w (length l) = w - length l mod w) by (unfold room; apply Nat.mod_small; lia). rewrite RM in HR.
  assert (LN : length (blocks b) = length l / w + 1). { rewrite R2. rewrite <- (ComputeBlockCount_nblocks w). unfold ComputeBlockCount, GetBlockIndex. rewrite (GetBitIndex_mod w). now replace (length l mod w =? 0) with false by lia. }
  unfold AppendSigned, signed_head in E. rewrite R1 in E. replace (length l mod w =? 0) with false in E by lia. cbn [negb] in E. rewrite LN in E. replace (length l / w + 1 - 1) with (length l / w) in E by lia. unfold vget in E. destruct (nth_error (blocks b) (length l / w)) as [x|] eqn:EX; [|discriminate]. cbn [bind] in E.
  unfold shl in E. assert (PW : w <= pw w) by (unfold pw; lia). replace (length l mod w <? pw w) with true in E by lia. cbn [bind] in E. unfold vset in E. replace (length l / w <? length (blocks b)) with true in E by lia. cbn [bind] in E.
  replace (n - Nat.min (w - length l mod w) n) with 0 in E by lia. cbn [Nat.ltb Nat.leb] in E. injection E as <-. cbn [blocks].
  rewrite (nth_error_nth _ _ _ (eq_trans (nth_error_upd _ _ _ _) ltac:(rewrite Nat.eqb_refl; replace (length l / w <? length (blocks b)) with true by lia; reflexivity))).
  rewrite N.lor_spec, trunc_bit. replace (i <? w) with true by lia. cbn [andb]. rewrite N.shiftl_spec_high' by lia. replace (N.of_nat i - N.of_nat (length l mod w))%N with (N.of_nat (i - length l mod w)) by lia. rewrite block_bit. replace (i - length l mod w <? w) with true by lia. cbn [andb]. apply orb_true_iff. right.
  set (k := i - length l mod w). assert (HB : (2 ^ (Z.of_nat tw - 1) <= 2 ^ Z.of_nat k)%Z) by (apply Z.pow_le_mono_r; unfold k; lia). rewrite <- (Z.lnot_involutive z), Z.lnot_spec by lia. apply negb_true_iff. apply Z.bits_above_log2; [unfold Z.lnot; lia|].
  destruct (Z.eq_dec (Z.lnot z) 0) as [->|NQ]; [cbn; unfold k; lia|]. apply Z.log2_lt_pow2; unfold Z.lnot in *; lia.
Qed.
Print Assumptions C155_open_block_refuted.

(** AppendBits(std::int8_t(-1), 8) on an empty Bitset<UInt32>: 32 bits are counted in a bitset of 8. *)
Example C155_stray_case : AppendSigned 32 8 empty (-1) 8 = Done (mkB [4294967295]%N 8) /\ Count 32 (mkB [4294967295]%N 8) = 32.
Proof. vm_compute. auto. Qed.
Example C155_open_case : AppendSigned 32 8 (mkB [1]%N 1) (-128) 8 = Done (mkB [4294967041]%N 9).
Proof. reflexivity. Qed.
Example C155_fits_case : fits 8 32 3 20 /\ AppendSigned 8 32 (mkB [5]%N 3) (-2) 20 = Done (mkB [245; 255; 127]%N 23).
Proof. split; [apply Nat.leb_le; reflexivity | reflexivity]. Qed.

(** More bits than the type has: the sign fills the first block to its end and the next one is 0, so that the bits appended are neither the
    representation followed by zeros nor the value in two's complement. *)
Theorem C155_longer_refuted : forall w, width w -> forall tw b z n, 0 < tw <= w -> bitCount b mod w = 0 -> w < n < 2 * w -> (- 2 ^ (Z.of_nat tw - 1) <= z < 0)%Z ->
  AppendSigned w tw b z n = Done (mkB (blocks b ++ [Z.to_N (z mod 2 ^ Z.of_nat w); 0%N]) (bitCount b + n)) /\
  (forall i, tw <= i < w -> N.testbit (Z.to_N (z mod 2 ^ Z.of_nat w)) (N.of_nat i) = true).
Proof.
  intros w Hw tw b z n Ht E Hn Hz. pose proof (width_pos w Hw) as Hp. split.
  - unfold AppendSigned, signed_head. rewrite E. cbn [Nat.eqb negb bind]. replace (0 <? n) with true by lia.
    assert (CB : ComputeBlockCount w n = 2). { unfold ComputeBlockCount, GetBlockIndex. rewrite (GetBitIndex_mod w). assert (D : n / w = 1) by (symmetry; apply (Nat.div_unique n w 1 (n - w)); lia). assert (M : n mod w = n - w) by (symmetry; apply (Nat.mod_unique n w 1 (n - w)); lia). rewrite D, M. now replace (n - w =? 0) with false by lia. }
    rewrite CB. unfold signed_loop, range. cbn [Nat.sub seq foreach bind]. replace (w <? tw) with false by lia. unfold signed_last.
    assert (S1 : exists one, shlp w 1 (n - w) = Done one) by (unfold shlp, pw; replace (n - w <? Nat.max w 32) with true by lia; eauto). destruct S1 as (one & ->). cbn [bind]. do 2 f_equal. rewrite <- app_assoc. cbn [app]. do 2 f_equal. f_equal.
    rewrite Z.land_0_l. unfold to_signed. assert (P : (0 < 2 ^ (Z.of_nat tw - 1))%Z) by (apply Z.pow_pos_nonneg; lia). assert (P2 : (2 ^ Z.of_nat tw = 2 * 2 ^ (Z.of_nat tw - 1))%Z) by (rewrite <- Z.pow_succ_r by lia; f_equal; lia). rewrite Z.mod_small by lia. replace (0 + 2 ^ (Z.of_nat tw - 1) - 2 ^ (Z.of_nat tw - 1))%Z with 0%Z by lia. unfold to_block. now rewrite Z.mod_0_l by (apply Z.pow_nonzero; lia).
  - intros i Hi. change (Z.to_N (z mod 2 ^ Z.of_nat w)) with (to_block w z). rewrite block_bit. replace (i <? w) with true by lia. cbn [andb].
    assert (HB : (2 ^ (Z.of_nat tw - 1) <= 2 ^ Z.of_nat i)%Z) by (apply Z.pow_le_mono_r; lia). rewrite <- (Z.lnot_involutive z), Z.lnot_spec by lia. apply negb_true_iff. apply Z.bits_above_log2; [unfold Z.lnot; lia|].
    destruct (Z.eq_dec (Z.lnot z) 0) as [->|NQ]; [cbn; lia|]. apply Z.log2_lt_pow2; unfold Z.lnot in *; lia.
Qed.
Print Assumptions C155_longer_refuted.
Example C155_longer_example : AppendSigned 8 8 (mkB [] 0) (-1) 12 = Done (mkB [255; 0]%N 12) /\ AppendSigned 16 8 (mkB [] 0) (-1) 20 = Done (mkB [65535; 0]%N 20).
Proof. split; reflexivity. Qed.
