(** Integer conversions, AppendBits, Write, bit proxies, ordering, moved-from bitsets. *)
From Verif Require Import Base CInt MathModel BitsetModel BitsetSpec BitsetBits BitsetProofs BitsetFind.
Open Scope nat_scope.

Lemma s_value_bits l : forall i, N.testbit (s_value l) (N.of_nat i) = sbit l i.
Proof.
  induction l as [|b l IH]; intros i.
  - simpl. rewrite N.bits_0. unfold sbit. now destruct i.
  - cbn [s_value]. destruct i as [|i].
    + change (N.of_nat 0) with 0%N. unfold sbit. cbn [nth]. destruct b.
      * replace (1 + 2 * s_value l)%N with (2 * s_value l + 1)%N by lia. apply N.testbit_odd_0.
      * replace (0 + 2 * s_value l)%N with (2 * s_value l)%N by lia. apply N.testbit_even_0.
    + rewrite Nat2N.inj_succ. change (sbit (b :: l) (S i)) with (sbit l i). rewrite <- IH. destruct b.
      * replace (1 + 2 * s_value l)%N with (2 * s_value l + 1)%N by lia. apply N.testbit_odd_succ. lia.
      * replace (0 + 2 * s_value l)%N with (2 * s_value l)%N by lia. apply N.testbit_even_succ. lia.
Qed.

Lemma s_value_lt l : (s_value l < 2 ^ N.of_nat (length l))%N.
Proof.
  apply lt_pow2_bits. intros i Hi. replace i with (N.of_nat (N.to_nat i)) by lia.
  rewrite s_value_bits. apply sbit_high. lia.
Qed.

Lemma s_value_nbits n v : (v < 2 ^ N.of_nat n)%N -> s_value (nbits n v) = v.
Proof.
  intros H. apply testbit_ext_lt with (N.of_nat n); [|exact H|].
  - rewrite <- (nbits_length n v) at 2. apply s_value_lt.
  - intros i Hi. replace i with (N.of_nat (N.to_nat i)) by lia. rewrite s_value_bits, sbit_nbits.
    destruct (Nat.ltb_spec (N.to_nat i) n); [reflexivity | lia].
Qed.

Lemma s_value_ext l v : (forall i, sbit l i = N.testbit v (N.of_nat i)) -> s_value l = v.
Proof.
  intros H. apply N.bits_inj. intros i. replace i with (N.of_nat (N.to_nat i)) by lia.
  now rewrite s_value_bits, H.
Qed.

Lemma mod_pow2_testbit x n i : N.testbit (x mod 2 ^ n)%N i = ((i <? n) && N.testbit x i)%N.
Proof.
  destruct (N.ltb_spec i n); [now rewrite N.mod_pow2_bits_low | now rewrite N.mod_pow2_bits_high].
Qed.

Section I.
Variable w : nat.
Context {Hw : width w}.
Let Wpos : 0 < w := width_pos w Hw.

(** ** To *)
Lemma To_repr b l tw : repr w b l -> To w tw b = if length l <=? tw then Done (s_value l) else Fault FAssert.
Proof.
  intros (HC & HL & HS & HB). unfold To. rewrite HC.
  destruct (Nat.leb_spec (length l) tw) as [Ht|Ht]; [|reflexivity]. cbn [assert bind].
  destruct (foreach_range (fun i v => forall k, N.testbit v (N.of_nat k) = if k <? w * i then sbit l k else false)
    (fun value i => x <- vget (blocks b) i ;;
      if i * w <? Nat.max tw 32
      then Done (N.lor value (N.shiftl (x mod 2 ^ N.of_nat tw) (N.of_nat (i * w))) mod 2 ^ N.of_nat tw)%N
      else Fault FUB) 0 (length (blocks b)) 0%N) as (v & E & H).
  - lia.
  - intros k. rewrite N.bits_0. destruct (Nat.ltb_spec k (w * 0)); [lia | reflexivity].
  - intros i v Hi H. rewrite (vget_done _ _ 0%N) by lia. cbn [bind].
    destruct (nblocks_spec w (length l)) as [B1 B2]. rewrite <- HL in B1, B2.
    assert (Hm : w * (i + 1) <= w * length (blocks b)) by (apply (wmul_mono w); lia).
    rewrite Nat.mul_add_distr_l, Nat.mul_1_r in Hm. rewrite (Nat.mul_comm i w).
    destruct (Nat.ltb_spec (w * i) (Nat.max tw 32)); [|lia].
    eexists. split; [reflexivity|]. intros k.
    rewrite mod_pow2_testbit, N.lor_spec, shiftl_bits, mod_pow2_testbit, H.
    rewrite Nat.mul_add_distr_l, Nat.mul_1_r.
    destruct (N.ltb_spec (N.of_nat k) (N.of_nat tw)) as [K|K]; cbn [andb].
    + destruct (Nat.ltb_spec k (w * i)) as [K1|K1].
      * destruct (N.leb_spec (N.of_nat (w * i)) (N.of_nat k)); [lia|]. cbn [andb]. rewrite orb_false_r.
        destruct (Nat.ltb_spec k (w * i + w)); [reflexivity | lia].
      * destruct (N.leb_spec (N.of_nat (w * i)) (N.of_nat k)); [|lia]. cbn [andb orb].
        destruct (N.ltb_spec (N.of_nat k - N.of_nat (w * i)) (N.of_nat tw)); [|lia]. cbn [andb].
        replace (N.of_nat k - N.of_nat (w * i))%N with (N.of_nat (k - w * i)) by lia.
        rewrite (nth_bits w) by assumption.
        destruct (Nat.ltb_spec (k - w * i) w), (Nat.ltb_spec k (w * i + w)); try lia.
        rewrite HB. f_equal. lia.
    + destruct (Nat.ltb_spec k (w * i + w)); [|reflexivity]. symmetry. apply sbit_high. lia.
  - rewrite E. f_equal. symmetry. apply s_value_ext. intros k. rewrite H.
    destruct (Nat.ltb_spec k (w * length (blocks b))) as [K|K]; [reflexivity|]. apply sbit_high.
    destruct (nblocks_spec w (length l)) as [B1 B2]. rewrite <- HL in B1. lia.
Qed.

(** ** Construction from an integer *)
Lemma block_cast_small v tw : tw <= w -> (0 <= v < 2 ^ Z.of_nat tw)%Z -> cast (block_ty w) v = v.
Proof.
  intros Ht Hv. unfold cast, block_ty. cbn [sgn wid].
  apply Z.mod_small. split; [lia|]. apply Z.lt_le_trans with (2 ^ Z.of_nat tw)%Z; [lia|].
  apply Z.pow_le_mono_r; lia.
Qed.

Lemma of_N_pow n : Z.of_N (2 ^ N.of_nat n) = (2 ^ Z.of_nat n)%Z.
Proof. rewrite N2Z.inj_pow. now rewrite nat_N_Z. Qed.

Lemma of_int_repr_small tw v : 0 < tw -> tw <= w -> (v < 2 ^ N.of_nat tw)%N ->
  exists b, of_int w tw (Z.of_N v) = Done b /\ repr w b (nbits tw v).
Proof.
  intros H0 Ht Hv. unfold of_int. destruct (Nat.leb_spec tw w); [|lia].
  eexists. split; [reflexivity|]. rewrite (block_cast_small (Z.of_N v) tw).
  2: assumption.
  2: { rewrite <- of_N_pow. lia. }
  rewrite N2Z.id. unfold repr. cbn [blocks bitCount]. rewrite nbits_length.
  split; [reflexivity|]. split.
  { unfold nblocks. cbn [length]. replace (tw + w - 1) with (w * 1 + (tw - 1)) by lia. symmetry. apply (div_unique_w w). lia. }
  assert (Hs : small w [v]).
  { constructor; [|constructor]. apply N.lt_le_trans with (2 ^ N.of_nat tw)%N; [exact Hv|]. apply N.pow_le_mono_r; lia. }
  split; [exact Hs|]. intros k. rewrite sbit_nbits.
  destruct (Nat.lt_ge_cases k w) as [K|K].
  - unfold lbit. rewrite Nat.div_small, Nat.mod_small by assumption. cbn [nth].
    destruct (Nat.ltb_spec k tw) as [|K2]; [reflexivity|].
    apply (proj1 (lt_pow2_bits v (N.of_nat tw)) Hv). lia.
  - rewrite (lbit_high w) by (cbn [length]; lia). destruct (Nat.ltb_spec k tw); [lia | reflexivity].
Qed.

(** Wider integer: the size is the position after the highest set bit. *)
Lemma of_int_repr_wide tw v : w < tw ->
  exists b l, of_int w tw v = Done b /\ repr w b l /\ length l <= tw /\
    (forall i, sbit l i = (i <? tw) && Z.testbit v (Z.of_nat i)) /\ (l = [] \/ sbit l (length l - 1) = true).
Proof.
  intros Ht. unfold of_int. destruct (Nat.leb_spec tw w); [lia|].
  destruct (foreach_range (fun n b => exists l, repr w b l /\ length l <= n /\
      (forall i, sbit l i = (i <? n) && Z.testbit v (Z.of_nat i)) /\ (l = [] \/ sbit l (length l - 1) = true))
    (fun b bitPos => if Z.testbit v (Z.of_nat bitPos) then UnboundedSet w b bitPos true else Done b) 0 tw empty)
    as (b & E & l & R & A & B & C).
  - lia.
  - exists []. split; [apply (repr_empty w)|]. split; [simpl; lia|]. split; [|auto].
    intros i. destruct (Nat.ltb_spec i 0); [lia|]. unfold sbit. now destruct i.
  - intros n b Hn (l & R & A & B & C). destruct (Z.testbit v (Z.of_nat n)) eqn:T.
    + destruct (UnboundedSet_repr w b l n true R) as (b' & E & R'). exists b'. split; [exact E|].
      unfold s_uset in R'. destruct (Nat.ltb_spec n (length l)); [lia|].
      eexists. split; [exact R'|].
      assert (LL : length (l ++ repeat false (n - length l) ++ [true]) = n + 1).
      { rewrite !app_length, repeat_length. simpl. lia. }
      assert (SS : forall i, sbit (l ++ repeat false (n - length l) ++ [true]) i = if i =? n then true else sbit l i).
      { intros i. unfold sbit. rewrite !nth_app_full, repeat_length, nth_repeat_full.
        destruct (Nat.ltb_spec i (length l)) as [Q|Q].
        - destruct (Nat.eqb_spec i n); [lia | reflexivity].
        - rewrite (nth_overflow l) by assumption. destruct (Nat.ltb_spec (i - length l) (n - length l)) as [Q2|Q2].
          + destruct (Nat.eqb_spec i n); [lia | reflexivity].
          + destruct (Nat.eqb_spec i n) as [->|].
            * now rewrite Nat.sub_diag.
            * apply nth_overflow. simpl. lia. }
      split; [lia|]. split.
      * intros i. rewrite SS, B. destruct (Nat.eqb_spec i n) as [->|].
        -- destruct (Nat.ltb_spec n (n + 1)); [|lia]. now rewrite T.
        -- destruct (Nat.ltb_spec i n), (Nat.ltb_spec i (n + 1)); try reflexivity; lia.
      * right. rewrite LL. replace (n + 1 - 1) with n by lia. rewrite SS. now rewrite Nat.eqb_refl.
    + exists b. split; [reflexivity|]. exists l. split; [exact R|]. split; [lia|]. split; [|exact C].
      intros i. rewrite B. destruct (Nat.eq_dec i n) as [->|].
      * rewrite T. now rewrite !andb_false_r.
      * destruct (Nat.ltb_spec i n), (Nat.ltb_spec i (n + 1)); try reflexivity; lia.
  - exists b, l. auto.
Qed.

(** Whatever the branch, the bits of the bitset are the binary digits of the value, and To gives it back. *)
Lemma of_int_roundtrip tw v : 0 < tw -> (v < 2 ^ N.of_nat tw)%N ->
  exists b l, of_int w tw (Z.of_N v) = Done b /\ repr w b l /\ length l <= tw /\
    (forall i, sbit l i = N.testbit v (N.of_nat i)) /\ To w tw b = Done v.
Proof.
  intros H0 Hv. destruct (Nat.le_gt_cases tw w) as [Ht|Ht].
  - destruct (of_int_repr_small tw v H0 Ht Hv) as (b & E & R). exists b, (nbits tw v).
    split; [exact E|]. split; [exact R|]. rewrite nbits_length. split; [lia|]. split.
    + intros i. rewrite sbit_nbits. destruct (Nat.ltb_spec i tw); [reflexivity|].
      symmetry. apply (proj1 (lt_pow2_bits v (N.of_nat tw)) Hv). lia.
    + rewrite (To_repr _ _ _ R), nbits_length. destruct (Nat.leb_spec tw tw); [|lia].
      now rewrite s_value_nbits.
  - destruct (of_int_repr_wide tw (Z.of_N v) Ht) as (b & l & E & R & A & B & C).
    assert (BB : forall i, sbit l i = N.testbit v (N.of_nat i)).
    { intros i. rewrite B. rewrite <- nat_N_Z, N2Z.inj_testbit.
      destruct (Nat.ltb_spec i tw); [reflexivity|]. cbn [andb].
      symmetry. apply (proj1 (lt_pow2_bits v (N.of_nat tw)) Hv). lia. }
    exists b, l. split; [exact E|]. split; [exact R|]. split; [exact A|]. split; [exact BB|].
    rewrite (To_repr _ _ _ R). destruct (Nat.leb_spec (length l) tw); [|lia].
    f_equal. now apply s_value_ext.
Qed.

(** ** AppendBits *)
Lemma lbit_snoc l x k : lbit w (l ++ [x]) k =
  if k <? w * length l then lbit w l k else if k <? w * (length l + 1) then N.testbit x (N.of_nat (k - w * length l)) else false.
Proof.
  unfold lbit at 1. rewrite nth_app_full. destruct (divmod_w w k) as [K1 K2].
  rewrite Nat.mul_add_distr_l, Nat.mul_1_r.
  destruct (Nat.ltb_spec (k / w) (length l)) as [A|A].
  - assert (w * (k / w + 1) <= w * length l) by (apply (wmul_mono w); lia).
    rewrite Nat.mul_add_distr_l, Nat.mul_1_r in H.
    destruct (Nat.ltb_spec k (w * length l)); [reflexivity | lia].
  - pose proof (wmul_mono w _ _ A).
    destruct (Nat.ltb_spec k (w * length l)); [lia|].
    destruct (Nat.eq_dec (k / w) (length l)) as [Eq|Ne].
    + rewrite Eq, Nat.sub_diag. cbn [nth]. destruct (Nat.ltb_spec k (w * length l + w)); [|rewrite Eq in *; lia].
      f_equal. rewrite Eq in K1. lia.
    + assert (w * (length l + 1) <= w * (k / w)) by (apply (wmul_mono w); lia).
      rewrite Nat.mul_add_distr_l, Nat.mul_1_r in H1.
      destruct (Nat.ltb_spec k (w * length l + w)); [lia|].
      rewrite nth_overflow by (simpl; lia). apply N.bits_0.
Qed.

Lemma shiftr_beyond x n s : (x < 2 ^ N.of_nat n)%N -> n <= s -> N.shiftr x (N.of_nat s) = 0%N.
Proof.
  intros Hx Hs. apply N.bits_inj. intros i. rewrite N.bits_0, N.shiftr_spec'.
  apply (proj1 (lt_pow2_bits x (N.of_nat n)) Hx). lia.
Qed.

Lemma small_app l x : small w l -> (x < 2 ^ N.of_nat w)%N -> small w (l ++ [x]).
Proof. intros H Hx. apply Forall_app. split; [exact H|]. now repeat constructor. Qed.

(** Bits still missing once the last partial block is full. *)
Definition free_bits (n : nat) : nat := w * nblocks w n - n.

Lemma free_bits_spec n : (n mod w = 0 /\ free_bits n = 0) \/ (n mod w <> 0 /\ free_bits n = w - n mod w).
Proof.
  unfold free_bits. destruct (divmod_w w n) as [D1 D2].
  destruct (nblocks_cases w n) as [(A & B & C)|(A & B & C)]; [left | right]; split; auto; lia.
Qed.

(** What AppendBits does, in full: undefined exactly when the last block to push is complete and Block is not
    promoted; otherwise the old bits are kept, the new ones are the low bits of [bits0], and when everything fits in the
    last block nothing masks the higher bits of [bits0]. *)
Lemma AppendBits_full tw b l bits0 n0 : 0 < tw -> repr w b l -> (bits0 < 2 ^ N.of_nat tw)%N ->
  let len := length l in
  let n1 := n0 - free_bits len in
  if (32 <=? w) && (0 <? n1) && (n1 mod w =? 0) then AppendBits w tw b bits0 n0 = Fault FUB
  else exists l', AppendBits w tw b bits0 n0 = Done (mkB l' (len + n0)) /\ length l' = nblocks w (len + n0) /\ small w l' /\
    forall k, lbit w l' k = if k <? len then sbit l k else if k <? len + n0 then N.testbit bits0 (N.of_nat (k - len))
                            else if (n1 =? 0) && (k <? w * nblocks w len) then N.testbit bits0 (N.of_nat (k - len)) else false.
Proof.
  intros Htw R Hbits len n1. pose proof R as (HC & HL & HS & HB). unfold AppendBits. rewrite HC. fold len in HC, HL |- *.
  destruct (nblocks_spec w len) as [NB1 NB2]. destruct (divmod_w w len) as [D1 D2].
  set (nb := nblocks w len) in *.
  (* the first step *)
  assert (FIRST : exists l1, 
    (if negb (len mod w =? 0) then
       x <- vget (blocks b) (length (blocks b) - 1) ;;
       s <- shl w (trunc w bits0) (len mod w) ;;
       l <- vset (blocks b) (length (blocks b) - 1) (N.lor x s) ;;
       Done (l, (if w - len mod w <? tw then N.shiftr bits0 (N.of_nat (w - len mod w)) else 0%N), n0 - Nat.min (w - len mod w) n0)
     else Done (blocks b, bits0, n0)) = Done (l1, N.shiftr bits0 (N.of_nat (free_bits len)), n1) /\
    length l1 = nb /\ small w l1 /\
    forall k, lbit w l1 k = if k <? w * nb then (if k <? len then sbit l k else N.testbit bits0 (N.of_nat (k - len))) else false).
  { destruct (free_bits_spec len) as [(F1 & F2)|(F1 & F2)].
    - rewrite F1. cbn [Nat.eqb negb]. exists (blocks b). unfold n1. rewrite F2. change (N.of_nat 0) with 0%N.
      rewrite N.shiftr_0_r, Nat.sub_0_r. split; [reflexivity|]. split; [exact HL|]. split; [exact HS|].
      assert (W : w * nb = len) by (unfold free_bits in F2; fold nb in F2; lia).
      intros k. rewrite HB, W. destruct (Nat.ltb_spec k len) as [K|K]; [reflexivity|]. now apply sbit_high.
    - destruct (Nat.eqb_spec (len mod w) 0); [lia|]. cbn [negb].
      assert (Hnb : 0 < nb). { apply Nat.neq_0_lt_0. intros C. rewrite C in NB1. rewrite Nat.mul_0_r in NB1. assert (len = 0) by lia. rewrite H in F1. now rewrite Nat.mod_0_l in F1 by lia. }
      rewrite HL. rewrite (vget_done _ _ 0%N) by lia. cbn [bind]. rewrite (shl_done w) by exact D2. cbn [bind].
      rewrite vset_done by lia. cbn [bind].
      assert (M : w * (nb - 1) + w = w * nb) by now apply (wmul_succ w).
      assert (Q : len = w * (nb - 1) + len mod w) by (unfold free_bits in F2; fold nb in F2; lia).
      eexists. split; [|split; [|split]].
      + f_equal. f_equal; [f_equal|].
        * rewrite F2. destruct (Nat.ltb_spec (w - len mod w) tw); [reflexivity|]. symmetry. now apply shiftr_beyond with tw.
        * unfold n1. rewrite F2. lia.
      + now rewrite upd_length.
      + apply Forall_upd; [exact HS|]. apply lor_lt; [now apply (small_nth w) | apply (trunc_lt w)].
      + intros k. rewrite (lbit_upd w) by lia. destruct (divmod_w w k) as [K1 K2].
        destruct (Nat.eqb_spec (k / w) (nb - 1)) as [Ek|Ek].
        * rewrite Ek in K1. destruct (Nat.ltb_spec k (w * nb)); [|lia].
          rewrite N.lor_spec, (trunc_bits w), shiftl_bits, (trunc_bits w).
          destruct (N.ltb_spec (N.of_nat (k mod w)) (N.of_nat w)); [|lia]. cbn [andb].
          rewrite <- (lbit_at w) by assumption. rewrite <- K1, HB.
          destruct (Nat.ltb_spec k len) as [K|K].
          -- destruct (N.leb_spec (N.of_nat (len mod w)) (N.of_nat (k mod w))); [lia|]. apply orb_false_r.
          -- destruct (N.leb_spec (N.of_nat (len mod w)) (N.of_nat (k mod w))); [|lia].
             rewrite sbit_high by assumption. cbn [orb andb].
             destruct (N.ltb_spec (N.of_nat (k mod w) - N.of_nat (len mod w)) (N.of_nat w)); [|lia]. cbn [andb]. f_equal. lia.
        * rewrite HB. destruct (Nat.ltb_spec k (w * nb)) as [K|K].
          -- destruct (Nat.ltb_spec k len) as [|K3]; [reflexivity|]. exfalso. apply Ek.
             symmetry. apply Nat.div_unique with (k - w * (nb - 1)); lia.
          -- apply sbit_high. lia. }
  destruct FIRST as (l1 & E1 & L1 & S1 & B1). rewrite E1. cbn [bind]. clear E1.
  set (off := free_bits len) in *.
  assert (Hoff : len + off = w * nb) by (unfold off, free_bits; fold nb; lia).
  set (bits1 := N.shiftr bits0 (N.of_nat off)).
  destruct (Nat.ltb_spec 0 n1) as [Hn1|Hn1].
  2: { rewrite andb_false_r. cbn [andb]. exists l1. split; [reflexivity|].
       assert (n1 = 0) by lia. assert (Hle : n0 <= off) by (unfold n1 in H; lia).
       assert (NN : nblocks w (len + n0) = nb).
       { pose proof (nblocks_le w len (len + n0) ltac:(lia)). fold nb in H0. apply Nat.le_antisymm; [|exact H0].
         apply Nat.lt_succ_r. apply (wmul_lt w). rewrite Nat.mul_succ_r. destruct (nblocks_spec w (len + n0)). lia. }
       rewrite NN. split; [exact L1|]. split; [exact S1|]. intros k. rewrite B1, H. cbn [Nat.eqb andb].
       destruct (Nat.ltb_spec k (w * nb)), (Nat.ltb_spec k len), (Nat.ltb_spec k (len + n0)); try reflexivity; lia. }
  rewrite andb_true_r. rewrite (ComputeBlockCount_nblocks w).
  set (bc := nblocks w n1). destruct (nblocks_spec w n1) as [BC1 BC2]. fold bc in BC1, BC2.
  assert (Hbc : 0 < bc). { apply Nat.neq_0_lt_0. intros C. rewrite C, Nat.mul_0_r in BC1. lia. }
  assert (Mbc : w * (bc - 1) + w = w * bc) by now apply (wmul_succ w).
  assert (NN : nblocks w (len + n0) = nb + bc).
  { replace (len + n0) with (w * nb + n1) by lia. unfold bc, nblocks.
    replace (w * nb + n1 + w - 1) with (n1 + w - 1 + nb * w) by lia. rewrite Nat.div_add by lia. lia. }
  destruct (foreach_range (fun i '(l2, bits, n) => length l2 = nb + i /\ small w l2 /\ n = n1 - w * i /\
      bits = N.shiftr bits0 (N.of_nat (off + w * i)) /\
      forall k, lbit w l2 k = if k <? w * (nb + i) then (if k <? len then sbit l k else N.testbit bits0 (N.of_nat (k - len))) else false)
    (fun '(l, bits, n) _ =>
        Done (l ++ [trunc w bits], (if w <? tw then N.shiftr bits (N.of_nat w) else 0%N), n - w)) 0 (bc - 1) (l1, bits1, n1))
    as (((l2 & bits2) & n2) & E2 & L2 & S2 & EN & EB & B2).
  - lia.
  - rewrite Nat.add_0_r. split; [exact L1|]. split; [exact S1|]. split; [lia|]. split.
    + rewrite Nat.mul_0_r, Nat.add_0_r. reflexivity.
    + exact B1.
  - intros i ((l2 & bits) & n) Hi (A1 & A2 & A3 & A4 & A5). eexists. split; [reflexivity|].
    assert (W1 : w * (nb + i + 1) = w * (nb + i) + w) by lia.
    assert (W2 : w * (nb + i) = w * nb + w * i) by lia.
    split; [rewrite app_length; simpl; lia|]. split; [apply small_app; [exact A2 | apply (trunc_lt w)]|].
    split; [rewrite Nat.mul_add_distr_l; lia|]. split.
    + rewrite A4. destruct (Nat.ltb_spec w tw).
      * rewrite N.shiftr_shiftr. f_equal. lia.
      * symmetry. apply shiftr_beyond with tw; [exact Hbits|]. lia.
    + intros k. rewrite lbit_snoc, A1, A5, Nat.add_assoc, W1.
      destruct (Nat.ltb_spec k (w * (nb + i))) as [K|K].
      * destruct (Nat.ltb_spec k (w * (nb + i) + w)); [reflexivity | lia].
      * destruct (Nat.ltb_spec k (w * (nb + i) + w)) as [K2|K2]; [|reflexivity].
        destruct (Nat.ltb_spec k len); [lia|]. rewrite A4, (trunc_bits w), N.shiftr_spec'.
        destruct (N.ltb_spec (N.of_nat (k - w * (nb + i))) (N.of_nat w)); [|lia]. cbn [andb]. f_equal. lia.
  - rewrite E2. cbn [bind]. clear E2.
    assert (Hn2 : 0 < n2 <= w) by lia.
    assert (MW : (n1 mod w =? 0) = (n2 =? w)).
    { replace n1 with (n2 + (bc - 1) * w) by lia. rewrite Nat.mod_add by lia.
      destruct (Nat.eqb_spec n2 w) as [->|]; [now rewrite Nat.mod_same by lia|]. rewrite Nat.mod_small by lia.
      destruct (Nat.eqb_spec n2 0); [lia | reflexivity]. }
    rewrite MW. unfold shlp.
    destruct ((32 <=? w) && (n2 =? w)) eqn:FB.
    + apply andb_prop in FB as [FA FB]. apply Nat.leb_le in FA. apply Nat.eqb_eq in FB.
      unfold pw. destruct (Nat.ltb_spec n2 (Nat.max w 32)); [lia | reflexivity].
    + destruct (Nat.ltb_spec n2 (pw w)) as [P|P].
      2: { exfalso. unfold pw in P. destruct (Nat.leb_spec 32 w), (Nat.eqb_spec n2 w); try discriminate; lia. }
      cbn [bind]. eexists. split; [reflexivity|].
      assert (ONE : (N.shiftl 1 (N.of_nat n2) mod 2 ^ N.of_nat (pw w))%N = N.shiftl 1 (N.of_nat n2)).
      { apply N.mod_small. rewrite N.shiftl_1_l. apply N.pow_lt_mono_r; lia. }
      rewrite ONE.
      split; [rewrite app_length, L2; simpl; lia|]. split; [apply small_app; [exact S2 | apply (trunc_lt w)]|].
      assert (W3 : w * (nb + (bc - 1)) = w * nb + w * (bc - 1)) by lia.
      assert (W4 : w * (nb + (bc - 1) + 1) = w * nb + w * (bc - 1) + w) by lia.
      pose proof (Nat.le_0_l (w * (bc - 1))).
      intros k. rewrite lbit_snoc, L2, B2, W4, W3.
      rewrite (trunc_bits w), N.land_spec, lowmask_bits, EB, N.shiftr_spec'. assert (N1 : n1 = n0 - off) by reflexivity.
      clear - Wpos Hoff EN Hn2 Hn1 N1. clearbody n1 off nb bc len. set (A := w * nb) in *. set (B := w * (bc - 1)) in *. clearbody A B.
      destruct (Nat.eqb_spec n1 0); [lia|]. cbn [andb].
      destruct (Nat.ltb_spec k (A + B)) as [K|K].
      * destruct (Nat.ltb_spec k len); [reflexivity|]. destruct (Nat.ltb_spec k (len + n0)); [reflexivity | lia].
      * destruct (Nat.ltb_spec k len); [lia|].
        destruct (Nat.ltb_spec k (A + B + w)) as [K2|K2].
        -- destruct (N.ltb_spec (N.of_nat (k - (A + B))) (N.of_nat w)); [|lia]. cbn [andb].
           destruct (Nat.ltb_spec k (len + n0)) as [K3|K3].
           ++ destruct (N.ltb_spec (N.of_nat (k - (A + B))) (N.of_nat n2)); [|lia].
              rewrite andb_true_r. f_equal. lia.
           ++ destruct (N.ltb_spec (N.of_nat (k - (A + B))) (N.of_nat n2)); [lia|]. apply andb_false_r.
        -- destruct (Nat.ltb_spec k (len + n0)); [lia | reflexivity].
Qed.

(** [AppendBits] is a correct append when the argument has no bit set between [n0] and the end of the current block. *)
Lemma AppendBits_repr tw b l bits0 n0 : 0 < tw -> repr w b l -> (bits0 < 2 ^ N.of_nat tw)%N ->
  (forall j, n0 <= j < free_bits (length l) -> N.testbit bits0 (N.of_nat j) = false) ->
  (w < 32 \/ n0 <= free_bits (length l) \/ (n0 - free_bits (length l)) mod w <> 0) ->
  exists b', AppendBits w tw b bits0 n0 = Done b' /\ repr w b' (l ++ nbits n0 bits0).
Proof.
  intros Htw R Hb NL NF. pose proof (AppendBits_full tw b l bits0 n0 Htw R Hb) as F. cbv zeta in F.
  destruct ((32 <=? w) && (0 <? n0 - free_bits (length l)) && ((n0 - free_bits (length l)) mod w =? 0)) eqn:C.
  - exfalso. apply andb_prop in C as [C C3]. apply andb_prop in C as [C1 C2].
    apply Nat.leb_le in C1. apply Nat.ltb_lt in C2. apply Nat.eqb_eq in C3. lia.
  - destruct F as (l' & E & L & S & B). eexists. split; [exact E|].
    unfold repr. cbn [blocks bitCount]. rewrite app_length, nbits_length. split; [reflexivity|]. split; [exact L|]. split; [exact S|].
    intros k. rewrite B. unfold sbit at 2. rewrite nth_app_full. fold (sbit l k). fold (sbit (nbits n0 bits0) (k - length l)).
    rewrite sbit_nbits. destruct (Nat.ltb_spec k (length l)) as [K|K]; [reflexivity|].
    destruct (Nat.ltb_spec k (length l + n0)) as [K2|K2].
    + destruct (Nat.ltb_spec (k - length l) n0); [reflexivity | lia].
    + destruct (Nat.ltb_spec (k - length l) n0); [lia|].
      match goal with |- (if ?c then _ else _) = _ => destruct c eqn:Q end; [|reflexivity]. apply andb_prop in Q as [Q1 Q2]. apply Nat.ltb_lt in Q2.
      apply NL. unfold free_bits. lia.
Qed.

(** ... and only then: otherwise storage past the size is dirty. *)
Lemma AppendBits_leak tw b l bits0 n0 j b' : 0 < tw -> repr w b l -> (bits0 < 2 ^ N.of_nat tw)%N ->
  n0 <= j < free_bits (length l) -> N.testbit bits0 (N.of_nat j) = true ->
  AppendBits w tw b bits0 n0 = Done b' -> bitCount b' = length l + n0 /\ ~ exists l', repr w b' l'.
Proof.
  intros Htw R Hb Hj T E. pose proof (AppendBits_full tw b l bits0 n0 Htw R Hb) as F. cbv zeta in F.
  assert (n0 - free_bits (length l) = 0) by lia. rewrite H in F. change (0 <? 0) with false in F.
  rewrite andb_false_r in F. cbn [andb] in F. destruct F as (l' & E' & L & S & B). rewrite E in E'. injection E' as ->.
  split; [reflexivity|]. intros (l2 & HC & _ & _ & HB). cbn [bitCount blocks] in *.
  specialize (HB (length l + j)). rewrite B, (sbit_high l2) in HB by lia.
  cbn [Nat.eqb andb] in HB. destruct (Nat.ltb_spec (length l + j) (length l)); [lia|].
  destruct (Nat.ltb_spec (length l + j) (length l + n0)); [lia|].
  destruct (Nat.ltb_spec (length l + j) (w * nblocks w (length l))); [|unfold free_bits in Hj; lia].
  replace (length l + j - length l) with j in HB by lia. congruence.
Qed.

(** The bits below the size are right in every case (what Test sees). *)
Lemma AppendBits_test tw b l bits0 n0 b' : 0 < tw -> repr w b l -> (bits0 < 2 ^ N.of_nat tw)%N ->
  AppendBits w tw b bits0 n0 = Done b' ->
  bitCount b' = length l + n0 /\
  forall i, i < length l + n0 -> Test w b' i = Done (sbit (l ++ nbits n0 bits0) i).
Proof.
  intros Htw R Hb E. pose proof (AppendBits_full tw b l bits0 n0 Htw R Hb) as F. cbv zeta in F.
  destruct (_ && _ && _); [congruence|]. destruct F as (l' & E' & L & S & B). rewrite E in E'. injection E' as ->.
  split; [reflexivity|]. intros i Hi. unfold Test. cbn [bitCount blocks].
  destruct (Nat.ltb_spec i (length l + n0)); [|lia]. cbn [assert bind].
  unfold GetBlockIndex. rewrite (vget_done _ _ 0%N) by (rewrite L; now apply (div_lt_nblocks w)). cbn [bind].
  rewrite (mask_done w). cbn [bind]. f_equal. rewrite land_mask_testbit. fold (lbit w l' i). rewrite B.
  unfold sbit at 2. rewrite nth_app_full. fold (sbit l i). fold (sbit (nbits n0 bits0) (i - length l)). rewrite sbit_nbits.
  destruct (Nat.ltb_spec i (length l)); [reflexivity|]. destruct (Nat.ltb_spec i (length l + n0)); [|lia].
  destruct (Nat.ltb_spec (i - length l) n0); [reflexivity | lia].
Qed.

End I.
