(** Properties C19-C30: integer helpers of MathUtils and Endianness. *)
From Verif Require Import Base CInt MathModel MathProofs MathProofs2 MathBytes MathMisc.
Open Scope Z_scope.

(** *** C19 *)
(** The number of indices i < width with bit i set. *)
Theorem C19_count_bits : forall t v, In t int_types -> 0 <= v <= tmax t ->
  let n := length (filter (fun i => Z.testbit v (Z.of_nat i)) (seq 0 (Z.to_nat (wid t)))) in
  CountBits_rt t v = n /\ CountBits_ce t v = Done n.
Proof. intros t v Ht Hv. split; [exact (CountBits_rt_spec t v Ht Hv) | exact (CountBits_ce_spec t v Ht Hv)]. Qed.
Print Assumptions C19_count_bits.
(** Negative values: the two paths never agree. 8 and 16 bits: the run-time path counts the sign extension to 32 bits. *)
Theorem C19_narrow_negative_refuted : forall t v, In t [i8; i16] -> tmin t <= v < 0 ->
  exists n, CountBits_ce t v = Done n /\ CountBits_rt t v = (n + (32 - Z.to_nat (wid t)))%nat.
Proof.
  intros t v Ht Hv. eexists. split; [exact (CountBits_ce_narrow_negative t v Ht Hv) | exact (CountBits_rt_narrow_negative t v Ht Hv)].
Qed.
Print Assumptions C19_narrow_negative_refuted.
(** 32 and 64 bits: the run-time path is right; the constant evaluation always ends in a signed overflow. *)
Theorem C19_wide_negative_refuted : forall t v, In t [i32; i64] -> tmin t <= v < 0 ->
  CountBits_rt t v = length (filter (fun i => Z.testbit v (Z.of_nat i)) (seq 0 (Z.to_nat (wid t)))) /\ CountBits_ce t v = Fault FUB.
Proof.
  intros t v Ht Hv. split; [|exact (CountBits_ce_negative t v Ht Hv)].
  replace (wid t) with (builtin_width t) by (cbn [In] in Ht; destruct Ht as [<-|[<-|[]]]; reflexivity).
  apply CountBits_rt_negative; [|exact Hv]. cbn in *. tauto.
Qed.
Print Assumptions C19_wide_negative_refuted.
Example C19_nonvacuous : CountBits_rt u64 0xFF00FF0000000001 = 17%nat /\ CountBits_ce u16 0x8001 = Done 2%nat /\ CountBits_ce i8 (-1) = Done 8%nat /\ CountBits_rt i8 (-1) = 32%nat.
Proof. vm_compute. auto. Qed.

(** *** C20 *)
Theorem C20_find_first_bit : forall t v, In t int_types -> tmin t <= v <= tmax t ->
  exists r, FindFirstBit_rt t v = r /\ FindFirstBit_ce t v = Done (Z.of_nat r) /\
    ((r = 0%nat /\ v = 0) \/
     ((0 < r)%nat /\ Z.of_nat r <= wid t /\ Z.testbit v (Z.of_nat r - 1) = true /\ forall i, 0 <= i < Z.of_nat r - 1 -> Z.testbit v i = false)).
Proof.
  intros t v Ht Hv. assert (HR : in_range t v = true) by (unfold in_range; lia).
  exists (FindFirstBit_rt t v). split; [reflexivity|]. pose proof (FindFirstBit_rt_spec t v Ht HR) as S.
  destruct (FindFirstBit_ce_spec t v Ht HR) as (r & E & S'). rewrite E. rewrite (first_bit_unique _ _ _ _ S' S). split; [reflexivity|].
  destruct S as [(S1 & S2)|(S1 & S2 & S3)].
  - left. split; [lia|]. now apply (zero_low t).
  - right. repeat split; trivial; lia.
Qed.
Print Assumptions C20_find_first_bit.
Theorem C20_find_last_bit : forall t v, In t int_types -> 0 <= v <= tmax t ->
  exists r, FindLastBit_rt t v = Done r /\ FindLastBit_ce t v = r /\
    ((r = 0 /\ v = 0) \/ (1 <= r <= wid t /\ 2 ^ (r - 1) <= v < 2 ^ r)).
Proof.
  intros t v Ht Hv. assert (HR : in_range t v = true) by (each_type Ht; ranges; lia).
  destruct (FindLastBit_rt_spec t v Ht Hv) as (r & E & S). pose proof (FindLastBit_ce_spec t v Ht HR) as S'.
  exists r. split; [exact E|]. split; [exact (last_bit_unique _ _ _ _ S' S)|].
  assert (W : 0 < wid t) by (pose proof (type_widths t Ht); lia).
  assert (L : 0 <= v < 2 ^ wid t) by (each_type Ht; ranges; lia).
  rewrite (last_bit_unique _ _ _ _ S (log2_last_bit (wid t) v W L)).
  destruct (Z.eqb_spec v 0) as [->|H]; [left; auto | right].
  pose proof (Z.log2_nonneg v). assert (Z.log2 v < wid t) by (apply Z.log2_lt_pow2; lia). split; [lia|].
  replace (Z.log2 v + 1 - 1) with (Z.log2 v) by lia. rewrite Z.add_1_r. apply Z.log2_spec. lia.
Qed.
Print Assumptions C20_find_last_bit.
(** Negative values of int and wider: both paths give the width; for 8 and 16 bits only the constant evaluation does. *)
Theorem C20_find_last_bit_negative : forall t v, In t [i32; i64] -> tmin t <= v < 0 -> FindLastBit_rt t v = Done (wid t) /\ FindLastBit_ce t v = wid t.
Proof.
  intros t v Ht Hv. assert (Ht' : In t signed_types) by (cbn in *; tauto). assert (Ht2 : In t int_types) by (cbn in *; tauto).
  rewrite FindLastBit_rt_negative by assumption. split; [cbn [In] in Ht; destruct Ht as [<-|[<-|[]]]; reflexivity|].
  assert (HR : in_range t v = true) by (cbn [In] in Ht; destruct Ht as [<-|[<-|[]]]; ranges; lia).
  apply (last_bit_unique (wid t) v); [now apply FindLastBit_ce_spec|]. pose proof (type_widths t Ht2).
  right. split; [lia|]. split; [|intros; lia]. apply (negative_high t); trivial; lia.
Qed.
Print Assumptions C20_find_last_bit_negative.
Theorem C20_narrow_negative_refuted : forall t v, In t [i8; i16] -> tmin t <= v < 0 -> FindLastBit_rt t v = Done 32 /\ FindLastBit_ce t v = wid t.
Proof.
  intros t v Ht Hv. assert (Ht' : In t signed_types) by (cbn in *; tauto). assert (Ht2 : In t int_types) by (cbn in *; tauto).
  rewrite FindLastBit_rt_negative by assumption. split; [cbn [In] in Ht; destruct Ht as [<-|[<-|[]]]; reflexivity|].
  assert (HR : in_range t v = true) by (cbn [In] in Ht; destruct Ht as [<-|[<-|[]]]; ranges; lia).
  apply (last_bit_unique (wid t) v); [now apply FindLastBit_ce_spec|]. pose proof (type_widths t Ht2).
  right. split; [lia|]. split; [|intros; lia]. apply (negative_high t); trivial; lia.
Qed.
Print Assumptions C20_narrow_negative_refuted.
Example C20_nonvacuous : FindFirstBit_rt u64 0x100000000 = 33%nat /\ FindFirstBit_ce i8 (-128) = Done 8 /\ FindLastBit_rt u32 0x00010010 = Done 17 /\ FindLastBit_ce u64 0x8000000000000000 = 64.
Proof. vm_compute. auto. Qed.

(** *** C21 *)
Theorem C21_log2_partial : forall t v, In t int_types -> 0 < v <= tmax t -> ~ 2 ^ 32 <= v < 2 ^ 33 ->
  exists r, IntegralLog2 t v = Done r /\ 2 ^ r <= v < 2 ^ (r + 1).
Proof.
  intros t v Ht Hv H. exists (Z.log2 v). split; [|rewrite Z.add_1_r; apply Z.log2_spec; lia]. apply IntegralLog2_spec; trivial; [lia|].
  intros E. apply H. pose proof (Z.div_mod v (2 ^ 32) ltac:(lia)). pose proof (Z.mod_pos_bound v (2 ^ 32) ltac:(lia)). lia.
Qed.
Print Assumptions C21_log2_partial.
Theorem C21_zero : forall t, In t int_types -> IntegralLog2 t 0 = Done 0.
Proof. intros t Ht. each_type Ht; reflexivity. Qed.
Print Assumptions C21_zero.
(** Every 64-bit value whose upper word is 1 gets a wrong answer. *)
Theorem C21_log2_refuted : forall t v, In t [u64; i64] -> 2 ^ 32 <= v < 2 ^ 33 -> exists r, IntegralLog2 t v = Done r /\ r <> 32.
Proof. intros t v Ht Hv. destruct (IntegralLog2_wrong t v Ht Hv) as (r & E & R & _). exists r. split; [exact E | lia]. Qed.
Print Assumptions C21_log2_refuted.
(** A negative argument, which has no logarithm, gives the index of the top bit of the 32- or 64-bit pattern, above the width of a narrow type. *)
Theorem C21_negative : forall t v, In t signed_types -> tmin t <= v < 0 -> IntegralLog2 t v = Done (Z.max 32 (wid t) - 1).
Proof. intros t v Ht Hv. rewrite IntegralLog2_negative by assumption. clear Hv. each_type Ht; reflexivity. Qed.
Print Assumptions C21_negative.
Example C21_nonvacuous : IntegralLog2 u64 0x200000000 = Done 33 /\ IntegralLog2 u32 0xFFFFFFFF = Done 31 /\ IntegralLog2 u8 200 = Done 7 /\ IntegralLog2 u64 0x100000000 = Done 0 /\
  IntegralLog2 i64 0x7FFFFFFFFFFFFFFF = Done 62 /\ IntegralLog2 i8 (-1) = Done 31.
Proof. vm_compute. auto 10. Qed.

(** *** C22 *)
Theorem C22_log2_pot : forall t k, In t int_types -> 0 <= k -> 2 ^ k <= tmax t -> IntegralLog2Pot t (2 ^ k) = Done k.
Proof.
  intros t k Ht Hk H. apply IntegralLog2Pot_spec; [now apply type_widths|]. split; [exact Hk|].
  pose proof (tmax_bound t Ht). apply (Z.pow_lt_mono_r_iff 2); [lia|pose proof (type_widths t Ht); lia|lia].
Qed.
Print Assumptions C22_log2_pot.
Theorem C22_zero : forall t, In t int_types -> IntegralLog2Pot t 0 = Done 0.
Proof. intros t Ht. each_type Ht; reflexivity. Qed.
Print Assumptions C22_zero.
Example C22_nonvacuous : IntegralLog2Pot u64 0x100000000 = Done 32 /\ IntegralLog2Pot u64 1 = Done 0 /\ IntegralLog2Pot i8 64 = Done 6.
Proof. vm_compute. auto. Qed.

(** *** C23 *)
(** The least multiple of [a] not below [o]. *)
Definition least_multiple (o a r : Z) : Prop := (exists q, r = q * a) /\ o <= r /\ forall q, o <= q * a -> r <= q * a.

Theorem C23_align : forall t o a, In t int_types -> 0 <= o <= tmax t -> 0 < a <= tmax t -> o + a - 1 <= tmax t ->
  (sgn t = true -> 32 <= wid t -> o + a <= tmax t) -> exists r, Align t o a = Done r /\ least_multiple o a r.
Proof. intros t o a Ht Ho Ha H1 H2. exact (Align_spec t o a Ht Ho Ha (conj H1 H2)). Qed.
Print Assumptions C23_align.
Theorem C23_align_pow2 : forall t o k, In t int_types -> tmin t <= o <= tmax t -> 0 <= k -> 2 ^ k <= tmax t -> o + 2 ^ k - 1 <= tmax t ->
  (sgn t = true -> 32 <= wid t -> o + 2 ^ k <= tmax t) -> exists r, AlignPow2 t o (2 ^ k) = Done r /\ least_multiple o (2 ^ k) r.
Proof.
  intros t o k Ht Ho Hk Ha H1 H2. apply AlignPow2_spec; trivial; [unfold in_range; lia | split; assumption].
Qed.
Print Assumptions C23_align_pow2.
Theorem C23_agree : forall t o k, In t int_types -> 0 <= o <= tmax t -> 0 <= k -> 2 ^ k <= tmax t -> o + 2 ^ k - 1 <= tmax t ->
  (sgn t = true -> 32 <= wid t -> o + 2 ^ k <= tmax t) -> Align t o (2 ^ k) = AlignPow2 t o (2 ^ k).
Proof.
  intros t o k Ht Ho Hk Ha H1 H2. pose proof (Z.pow_pos_nonneg 2 k ltac:(lia) Hk).
  destruct (C23_align t o (2 ^ k) Ht Ho) as (r & -> & R); trivial; [lia|].
  destruct (C23_align_pow2 t o k Ht) as (r' & -> & R'); trivial; [each_type Ht; ranges; lia|]. f_equal. exact (align_unique _ _ _ _ R R').
Qed.
Print Assumptions C23_agree.
(** Signed negative offsets: Align moves every negative multiple up by one alignment; AlignPow2 does not. *)
Theorem C23_negative_refuted : forall t q a, In t signed_types -> 1 < a <= tmax t -> q < 0 -> tmin t <= q * a ->
  Align t (q * a) a = Done ((q + 1) * a) /\ ~ least_multiple (q * a) a ((q + 1) * a).
Proof.
  intros t q a Ht Ha Hq HR. split.
  - apply Align_negative_multiple; trivial. unfold in_range. assert (q * a <= 0) by (apply Z.mul_nonpos_nonneg; lia). lia.
  - intros (_ & _ & H). specialize (H q ltac:(lia)). lia.
Qed.
Print Assumptions C23_negative_refuted.
Example C23_nonvacuous : Align u32 13 8 = Done 16 /\ AlignPow2 u8 240 16 = Done 240 /\ Align i32 (-8) 4 = Done (-4) /\ AlignPow2 i32 (-8) 4 = Done (-8) /\ Align u32 16 0 = Fault FAssert /\ AlignPow2 u32 16 6 = Fault FAssert.
Proof. vm_compute. auto 10. Qed.

(** *** C24 *)
Definition pow2_ceiling (v r : Z) : Prop := (exists k, 0 <= k /\ r = 2 ^ k) /\ v <= r /\ forall k, 0 <= k -> v <= 2 ^ k -> r <= 2 ^ k.

Theorem C24_round : forall t v k, In t int_types -> 0 < v <= 2 ^ k -> 0 <= k -> 2 ^ k <= tmax t -> exists r, RoundToPow2 t v = Done r /\ pow2_ceiling v r.
Proof.
  intros t v k Ht Hv Hk HT. eexists. split; [exact (RoundToPow2_spec t v k Ht Hv Hk HT)|]. apply log2_up_ceiling. lia.
Qed.
Print Assumptions C24_round.
(** Before and since C++20, which differ on shifts of negative values. *)
Theorem C24_nearest : forall cpp20 t v k fuel, In t int_types -> 0 <= v <= 2 ^ k -> 0 <= k -> 2 ^ k <= tmax t -> wid t <= Z.of_nat fuel ->
  exists r, GetNearestPowerOfTwo cpp20 fuel t v = Done r /\ pow2_ceiling v r.
Proof.
  intros c t v k fuel Ht Hv Hk HT HF. eexists. split; [exact (GetNearestPowerOfTwo_spec c t v k fuel Ht (proj2 Hv) Hk HT HF) | apply log2_up_ceiling; lia].
Qed.
Print Assumptions C24_nearest.
Theorem C24_nearest_negative : forall cpp20 t v fuel, v <= 0 -> GetNearestPowerOfTwo cpp20 fuel t v = Done 1.
Proof. intros c t v fuel Hv. unfold GetNearestPowerOfTwo. destruct fuel; cbn [GetNearestPowerOfTwo_loop]; replace (1 <? v) with false by lia; reflexivity. Qed.
Print Assumptions C24_nearest_negative.
Theorem C24_is_pow2 : forall t v, In t int_types -> 0 < v <= tmax t -> exists r, IsPow2 t v = Done r /\ (r = true <-> exists k, 0 <= k /\ v = 2 ^ k).
Proof. exact IsPow2_spec. Qed.
Print Assumptions C24_is_pow2.
(** GetNearestPowerOfTwo never returns above the highest representable power, whatever the number of iterations:
    it loops, except that a signed type before C++20 gets to shift a negative value, which is undefined. *)
Theorem C24_nearest_diverges_refuted : forall cpp20 t v fuel, In t int_types -> (forall k, 0 <= k -> 2 ^ k <= tmax t -> 2 ^ k < v) -> v <= tmax t ->
  GetNearestPowerOfTwo cpp20 fuel t v = Fault FDiverge \/ (cpp20 = false /\ sgn t = true /\ GetNearestPowerOfTwo cpp20 fuel t v = Fault FUB).
Proof.
  intros c t v fuel Ht HP Hv. destruct (top_power_max t Ht) as (T0 & T1 & T2). apply (nearest_diverges c t v Ht) with (k := 0); [|lia].
  rewrite T1. split; [now apply HP | exact Hv].
Qed.
Print Assumptions C24_nearest_diverges_refuted.
(** RoundToPow2 gives 0, which is not a power of two, for 0, for negative values and, on unsigned types, above the highest representable power. *)
Theorem C24_round_refuted : forall t v, (In t unsigned_types /\ (v = 0 \/ 2 ^ (wid t - 1) < v <= tmax t)) \/ (In t signed_types /\ tmin t < v <= 0) ->
  RoundToPow2 t v = Done 0.
Proof.
  intros t v [(Ht & Hv)|(Ht & Hv)]; [|now apply RoundToPow2_nonpositive]. assert (0 <= v <= tmax t).
  { destruct Hv as [->|Hv]; [each_type Ht; cbn; lia|]. assert (0 < 2 ^ (wid t - 1)) by (apply unsigned_in in Ht; apply Z.pow_pos_nonneg; lia). lia. }
  rewrite RoundToPow2_exact by assumption. destruct Hv as [->|Hv]; [reflexivity|].
  replace (2 ^ (wid t - 1) <? v) with true by lia. now rewrite orb_true_r.
Qed.
Print Assumptions C24_round_refuted.
(** On signed types the final increment overflows above it: undefined for int and wider types, the least value of narrower ones. *)
Theorem C24_round_signed_refuted : forall t v, In t signed_types -> (tmax t + 1) / 2 < v <= tmax t ->
  RoundToPow2 t v = if wid t <? 32 then Done (tmin t) else Fault FUB.
Proof. exact RoundToPow2_signed_above. Qed.
Print Assumptions C24_round_signed_refuted.
Example C24_nonvacuous : RoundToPow2 u32 17 = Done 32 /\ RoundToPow2 u64 16 = Done 16 /\ GetNearestPowerOfTwo false 64 u64 17 = Done 32 /\ IsPow2 u8 128 = Done true /\ IsPow2 u8 96 = Done false /\
  RoundToPow2 i32 0x30000000 = Done 0x40000000 /\ RoundToPow2 i32 0x40000001 = Fault FUB /\ RoundToPow2 i8 65 = Done (-128) /\
  GetNearestPowerOfTwo true 100 i8 65 = Fault FDiverge /\ GetNearestPowerOfTwo false 100 i8 65 = Fault FUB.
Proof. vm_compute. auto 12. Qed.

(** *** C25 *)
Theorem C25_byte_swap : forall t v, In t int_types -> tmin t <= v <= tmax t ->
  tmin t <= ByteSwap t v <= tmax t /\ ByteSwap t (ByteSwap t v) = v /\
  forall k, 0 <= k < wid t / 8 -> (ByteSwap t v / 2 ^ (8 * k)) mod 2 ^ 8 = (v / 2 ^ (8 * (wid t / 8 - 1 - k))) mod 2 ^ 8.
Proof.
  intros t v Ht Hv. assert (I : in_range t v = true) by (unfold in_range; lia).
  split; [pose proof (ByteSwap_range t v Ht I) as R; unfold in_range in R; lia|]. split; [now apply ByteSwap_involutive|].
  intros k Hk. exact (ByteSwap_byte t v k Ht Hk).
Qed.
Print Assumptions C25_byte_swap.
(** [memory_bytes hl t v] is the object representation of [v] on a little-endian (hl = true) or big-endian host. *)
Theorem C25_endianness : forall hl t v, In t int_types -> tmin t <= v <= tmax t ->
  let most_significant_first := rev (map (fun k => (v / 2 ^ (8 * Z.of_nat k)) mod 2 ^ 8) (seq 0 (Z.to_nat (wid t / 8)))) in
  memory_bytes hl t (HostToBigEndian hl t v) = most_significant_first /\
  memory_bytes hl t (HostToLittleEndian hl t v) = rev most_significant_first /\
  BigEndianToHost hl t (HostToBigEndian hl t v) = v /\ LittleEndianToHost hl t (HostToLittleEndian hl t v) = v.
Proof.
  intros hl t v Ht Hv M. unfold HostToBigEndian, HostToLittleEndian, BigEndianToHost, LittleEndianToHost.
  pose proof (ByteSwap_involutive t v Ht ltac:(unfold in_range; lia)) as I.
  split; [|split; [|split; destruct hl; trivial]].
  - destruct hl; [rewrite memory_swap by assumption|]; reflexivity.
  - unfold M. rewrite rev_involutive. destruct hl; [reflexivity|]. rewrite memory_swap by assumption. unfold memory_bytes. now rewrite rev_involutive.
Qed.
Print Assumptions C25_endianness.
Theorem C25_swap_buffer : forall buf n, (0 < n <= length buf)%nat -> Z.of_nat n <= 2 ^ 64 ->
  SwapBytes buf (Z.of_nat n) = Done (rev (firstn n buf) ++ skipn n buf).
Proof. exact SwapBytes_spec. Qed.
Print Assumptions C25_swap_buffer.
(** An empty buffer is not handled: the loop starts at index 2^64 - 1. *)
Theorem C25_swap_empty_refuted : forall buf, Z.of_nat (length buf) < 2 ^ 64 -> SwapBytes buf 0 = Fault FUB.
Proof. exact SwapBytes_zero. Qed.
Print Assumptions C25_swap_empty_refuted.
Example C25_nonvacuous : ByteSwap u32 0x11223344 = 0x44332211 /\ ByteSwap u64 0x1122334455667788 = 0x8877665544332211 /\ memory_bytes true u16 (HostToBigEndian true u16 0x1234) = [0x12; 0x34] /\ SwapBytes [1;2;3;4;5] 5 = Done [5;4;3;2;1] /\
  ByteSwap i16 0x0080 = -32768 /\ ByteSwap i32 (-2) = -16777217 /\ memory_bytes true i16 (HostToBigEndian true i16 (-2)) = [0xFF; 0xFE].
Proof. vm_compute. auto 10. Qed.

(** *** C26 *)
Theorem C26_reverse_bits : forall t v, In t int_types -> tmin t <= v <= tmax t ->
  exists r, ReverseBits t v = Done r /\ tmin t <= r <= tmax t /\ (forall i, 0 <= i < wid t -> Z.testbit r i = Z.testbit v (wid t - 1 - i)) /\ ReverseBits t r = Done v.
Proof.
  intros t v Ht Hv. destruct (ReverseBits_spec t v Ht) as (r & E & R & B). destruct (ReverseBits_involutive t v Ht ltac:(unfold in_range; lia)) as (r' & E' & I).
  exists r. split; [exact E|]. split; [unfold in_range in R; lia|]. split; [exact B|]. congruence.
Qed.
Print Assumptions C26_reverse_bits.
Example C26_nonvacuous : ReverseBits u32 0x00000105 = Done 0xA0800000 /\ ReverseBits u8 0x13 = Done 0xC8 /\ ReverseBits i8 1 = Done (-128) /\ ReverseBits i32 (-2) = Done 0x7FFFFFFF.
Proof. vm_compute. auto. Qed.

(** *** C27 *)
(** Bit i of a negative number is bit i of its two's complement representation. *)
Theorem C27_single_bits : forall t v bit, In t int_types -> tmin t <= v <= tmax t -> 0 <= bit < wid t ->
  let changes (f : outcome Z) (g : bool -> bool) := exists r, f = Done r /\ tmin t <= r <= tmax t /\
    forall i, 0 <= i < wid t -> Z.testbit r i = if i =? bit then g (Z.testbit v i) else Z.testbit v i in
  changes (SetBit t v bit) (fun _ => true) /\ changes (ClearBit t v bit) (fun _ => false) /\ changes (ToggleBit t v bit) negb /\
  TestBit t v bit = Done (Z.testbit v bit).
Proof.
  intros t v bit Ht Hv Hb changes.
  assert (I : forall r, in_range t r = true -> tmin t <= r <= tmax t) by (intros r R; unfold in_range in R; lia).
  split; [|split; [|split]].
  - destruct (SetBit_any t v bit Ht Hb) as (r & E & R & B). exists r. auto.
  - destruct (ClearBit_any t v bit Ht Hb) as (r & E & R & B). exists r. auto.
  - destruct (ToggleBit_any t v bit Ht Hb) as (r & E & R & B). exists r. auto.
  - apply TestBit_spec; trivial. unfold in_range. lia.
Qed.
Print Assumptions C27_single_bits.
Theorem C27_out_of_range : forall t v bit, (bit < 0 \/ wid t <= bit) -> SetBit t v bit = Fault FAssert /\ ClearBit t v bit = Fault FAssert /\
  ToggleBit t v bit = Fault FAssert /\ TestBit t v bit = Fault FAssert.
Proof. exact bit_out_of_range. Qed.
Print Assumptions C27_out_of_range.
Example C27_nonvacuous : SetBit u8 1 7 = Done 129 /\ ClearBit u64 0xFFFFFFFFFFFFFFFF 63 = Done 0x7FFFFFFFFFFFFFFF /\ ToggleBit u16 5 0 = Done 4 /\ TestBit u16 5 2 = Done true /\
  SetBit i8 1 7 = Done (-127) /\ ClearBit i32 (-1) 31 = Done 0x7FFFFFFF /\ TestBit i8 (-128) 7 = Done true /\ TestBit i64 (-1) 63 = Done true.
Proof. vm_compute. auto 10. Qed.

(** *** C28 *)
Theorem C28_clamp : forall v lo hi, lo <= hi -> lo <= Clamp v lo hi <= hi /\ forall x, lo <= x <= hi -> Z.abs (v - Clamp v lo hi) <= Z.abs (v - x).
Proof. exact Clamp_spec. Qed.
Print Assumptions C28_clamp.
(** As long as no sum wraps around, n steps bring the value n * increment closer and never past the objective. *)
Theorem C28_approach_partial : forall t obj inc n v, In t int_types -> tmin t <= obj <= tmax t -> 0 <= inc <= tmax t -> tmin t <= v <= tmax t ->
  (forall x, Z.min v obj <= x <= Z.max v obj -> (x < obj -> x + inc <= tmax (promote t)) /\ (obj < x -> tmin (promote t) <= x - inc)) ->
  exists r, Approach_iter t n v obj inc = Done r /\ Z.min v obj <= r <= Z.max v obj /\ Z.abs (obj - r) = Z.max 0 (Z.abs (obj - v) - Z.of_nat n * inc).
Proof. intros t obj inc n v Ht Ho Hi Hv HF. apply Approach_converges; trivial; unfold in_range; lia. Qed.
Print Assumptions C28_approach_partial.
(** Unsigned types: an increment larger than the distance to the bound of the type moves the value away. *)
Theorem C28_unsigned_refuted :
  (forall t v obj inc, In t [u32; u64] -> 0 <= obj < v -> v < inc <= tmax t -> exists r, Approach t v obj inc = Done r /\ v < r) /\
  (forall t v obj inc, In t [u32; u64] -> 0 <= v < obj -> obj <= tmax t -> 0 < inc <= tmax t -> tmax t < v + inc -> exists r, Approach t v obj inc = Done r /\ r < v).
Proof. split; [exact Approach_unsigned_down | exact Approach_unsigned_up]. Qed.
Print Assumptions C28_unsigned_refuted.
Theorem C28_signed_overflow_refuted : Approach i32 2147483640 2147483647 10 = Fault FUB.
Proof. reflexivity. Qed.
Print Assumptions C28_signed_overflow_refuted.
Example C28_nonvacuous : Approach_iter i32 4 (-7) 3 3 = Done 3 /\ Approach_iter i32 2 (-7) 3 3 = Done (-1) /\ Clamp 12 0 10 = 10 /\ Approach u32 3 1 5 = Done 4294967294.
Proof. vm_compute. auto. Qed.

(** *** C29 *)
Theorem C29_number_equals_partial : forall t a b d, In t [u8; u16; u32; u64; i32; i64] -> tmin t <= a <= tmax t -> tmin t <= b <= tmax t -> 0 <= d <= tmax t ->
  NumberEquals t a b d = Done (Z.abs (a - b) <=? d).
Proof. intros t a b d Ht Ha Hb Hd. apply NumberEquals_spec; trivial; unfold in_range; lia. Qed.
Print Assumptions C29_number_equals_partial.
Theorem C29_narrow_same_sign_partial : forall t a b d, In t [i8; i16] -> tmin t <= a <= tmax t -> tmin t <= b <= tmax t -> 0 <= d <= tmax t ->
  (0 <= a <-> 0 <= b) -> NumberEquals t a b d = Done (Z.abs (a - b) <=? d).
Proof. intros t a b d Ht Ha Hb Hd HS. apply NumberEquals_narrow_same_sign; trivial; unfold in_range; lia. Qed.
Print Assumptions C29_narrow_same_sign_partial.
(** 8 and 16 bits, opposite signs: always "equal". *)
Theorem C29_narrow_refuted : forall t a b d, In t [i8; i16] -> tmin t <= b < 0 -> 0 <= a <= tmax t -> 0 <= d <= tmax t -> NumberEquals t a b d = Done true.
Proof. exact NumberEquals_narrow. Qed.
Print Assumptions C29_narrow_refuted.
Example C29_nonvacuous : NumberEquals i32 2147483647 (-2147483648) 2147483647 = Done false /\ NumberEquals u8 3 7 4 = Done true /\ NumberEquals i8 127 (-128) 0 = Done true.
Proof. vm_compute. auto. Qed.

(** *** C30 *)
Theorem C30_shift_cpp20 : forall impl t1 t2 v s, In t1 int_types -> tmin t1 <= v <= tmax t1 -> 0 <= s < wid (promote t1) ->
  ArithmeticRightShift true impl t1 t2 v s = Done (v / 2 ^ s).
Proof. intros impl t1 t2 v s Ht Hv Hs. apply ars_cpp20; trivial. unfold in_range. lia. Qed.
Print Assumptions C30_shift_cpp20.
(** Before C++20, signed shift count: right with an arithmetic or a logical implementation of >>. *)
Theorem C30_shift_cpp17 : forall impl t1 t2 v s, In t1 int_types -> sgn t2 = true -> tmin t1 <= v <= tmax t1 -> 0 <= s < wid (promote t1) ->
  ArithmeticRightShift false impl t1 t2 v s = Done (v / 2 ^ s).
Proof. intros impl t1 t2 v s Ht H2 Hv Hs. apply ars_cpp17; trivial. unfold in_range. lia. Qed.
Print Assumptions C30_shift_cpp17.
(** Unsigned shift count: right with an arithmetic >>, wrong with a logical one. *)
Theorem C30_shift_unsigned_count_partial : forall t1 t2 v s, In t1 int_types -> sgn t2 = false -> tmin t1 <= v <= tmax t1 -> 0 <= s < wid (promote t1) ->
  ArithmeticRightShift false true t1 t2 v s = Done (v / 2 ^ s).
Proof. intros t1 t2 v s Ht H2 Hv Hs. apply (ars_simple true); auto. unfold in_range. lia. Qed.
Print Assumptions C30_shift_unsigned_count_partial.
Theorem C30_shift_unsigned_count_refuted : forall t1 t2 v s, In t1 [i32; i64] -> sgn t2 = false -> tmin t1 <= v < 0 -> 0 < s < wid t1 ->
  exists r, ArithmeticRightShift false false t1 t2 v s = Done r /\ 0 <= r.
Proof. exact ars_cpp17_unsigned_count_wrong. Qed.
Print Assumptions C30_shift_unsigned_count_refuted.
Theorem C30_pow : forall t b n, In t [u8; u32; u64] -> 0 <= b <= tmax t -> IntegralPow t b n = Done ((b ^ Z.of_nat n) mod 2 ^ wid t).
Proof. exact IntegralPow_unsigned. Qed.
Print Assumptions C30_pow.
Theorem C30_pow_exact : forall t b n, In t int_types -> (forall k, (k <= n)%nat -> tmin t <= b ^ Z.of_nat k <= tmax t) -> IntegralPow t b n = Done (b ^ Z.of_nat n).
Proof. intros t b n Ht H. apply IntegralPow_exact; trivial. intros k Hk. unfold in_range. specialize (H k Hk). lia. Qed.
Print Assumptions C30_pow_exact.
(** UInt16: the product is computed in int and overflows. *)
Theorem C30_pow_u16_refuted : IntegralPow u16 65535 2 = Fault FUB.
Proof. reflexivity. Qed.
Print Assumptions C30_pow_u16_refuted.
Theorem C30_mod : forall t x y, In t int_types -> tmin t <= x <= tmax t -> tmin t <= y <= tmax t -> y <> 0 -> ~ (x = tmin (promote t) /\ y = -1) ->
  exists r, Mod t x y = Done r /\ Z.abs r < Z.abs y /\ (exists q, x = q * y + r) /\ 0 <= r * x.
Proof.
  intros t x y Ht Hx Hy Hne HM. exists (Z.rem x y). split; [apply Mod_spec; trivial; unfold in_range; lia|].
  split; [now apply Z.rem_bound_abs|]. split; [exists (Z.quot x y); pose proof (Z.quot_rem' x y); lia|].
  now apply Z.rem_sign_mul.
Qed.
Print Assumptions C30_mod.
(** The least Int32 or Int64 modulo -1 is undefined, although the remainder would be 0. *)
Theorem C30_mod_refuted : forall t, In t [i32; i64] -> Mod t (tmin t) (-1) = Fault FUB /\ Z.rem (tmin t) (-1) = 0.
Proof. intros t [<-|[<-|[]]]; split; reflexivity. Qed.
Print Assumptions C30_mod_refuted.

(** *** C106, integers *)
(** Exact when product and sum are representable; modular for UInt8, UInt32 and UInt64. *)
Theorem C106_integer_exact : forall t x y z, In t int_types -> tmin (promote t) <= x * y <= tmax (promote t) -> tmin t <= x * y + z <= tmax t -> MultiplyAdd t x y z = Done (x * y + z).
Proof.
  intros t x y z Ht H1 H2. unfold MultiplyAdd. generalize dependent (x * y). intros p H1 H2. rewrite arith_id by (trivial; unfold in_range; lia). cbn [bind].
  rewrite arith_id by (trivial; apply in_promote; trivial; unfold in_range; lia). cbn [bind]. rewrite cast_id; trivial; [pose proof (wid_promote t Ht); lia|unfold in_range; lia].
Qed.
Theorem C106_integer_modular : forall t x y z, In t [u8; u32; u64] -> 0 <= x <= tmax t -> 0 <= y <= tmax t -> 0 <= z <= tmax t -> MultiplyAdd t x y z = Done ((x * y + z) mod 2 ^ wid t).
Proof.
  intros t x y z Ht Hx Hy Hz. unfold MultiplyAdd. destruct Ht as [<-|[<-|[<-|[]]]].
  - assert (0 <= x * y <= 255 * 255) by (change (tmax u8) with 255 in *; nia). generalize dependent (x * y). intros p P. change (tmax u8) with 255 in *.
    assert (K : forall n, 0 <= n <= 65280 -> arith u8 n = Done n) by (intros n Hn; apply arith_id; [cbn; tauto|unfold in_range; cbn; lia]).
    rewrite (K p) by lia. cbn [bind]. rewrite (K (p + z)) by lia. reflexivity.
  - change (arith u32 (x * y)) with (Done (cast u32 (x * y))). cbn [bind]. unfold arith, cast. cbn -[Z.pow Z.modulo]. rewrite Z.mod_mod, Zplus_mod_idemp_l by lia. reflexivity.
  - change (arith u64 (x * y)) with (Done (cast u64 (x * y))). cbn [bind]. unfold arith, cast. cbn -[Z.pow Z.modulo]. rewrite Z.mod_mod, Zplus_mod_idemp_l by lia. reflexivity.
Qed.
(** UInt16 operands are multiplied as int, and a product of Int32 or Int64 can overflow though the result would fit. *)
Theorem C106_integer_refuted : MultiplyAdd u16 65535 65535 0 = Fault FUB /\ MultiplyAdd i32 65536 32768 (-1) = Fault FUB /\ tmin i32 <= 65536 * 32768 + -1 <= tmax i32.
Proof. repeat split; discriminate. Qed.
Print Assumptions C106_integer_exact.
Print Assumptions C106_integer_modular.
Print Assumptions C106_integer_refuted.
Example C106_integer_example : MultiplyAdd i32 (-3) 5 7 = Done (-8) /\ MultiplyAdd u8 20 20 7 = Done 151.
Proof. split; reflexivity. Qed.
Example C30_nonvacuous : ArithmeticRightShift false false i32 i32 (-7) 1 = Done (-4) /\ ArithmeticRightShift false true i16 i32 (-7) 1 = Done (-4) /\ IntegralPow u32 3 21 = Done (3 ^ 21 mod 2 ^ 32) /\ Mod i32 (-7) 3 = Done (-1) /\ Mod i8 (-128) (-1) = Done 0.
Proof. vm_compute. auto. Qed.
