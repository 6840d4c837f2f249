(** Bit-level facts about blocks and lists of blocks. *)
From Verif Require Import Base CInt MathModel BitsetModel BitsetSpec.
Open Scope nat_scope.

(** The four block types. *)
Definition width (w : nat) : Prop := w = 8 \/ w = 16 \/ w = 32 \/ w = 64.
Existing Class width.

Lemma width_pow2 w : width w -> exists k, w = 2 ^ k.
Proof. intros [H|[H|[H|H]]]; subst; [exists 3|exists 4|exists 5|exists 6]; reflexivity. Qed.

Lemma width_pos w : width w -> 0 < w.
Proof. unfold width; lia. Qed.

Open Scope N_scope.

Lemma lt_pow2_bits x n : x < 2 ^ n <-> forall i, n <= i -> N.testbit x i = false.
Proof.
  split.
  - intros H i Hi. destruct (N.eq_dec x 0) as [->|Hx]; [apply N.bits_0|].
    apply N.bits_above_log2. apply N.log2_lt_pow2 in H; lia.
  - intros H. replace x with (x mod 2 ^ n).
    + apply N.mod_lt, N.pow_nonzero; lia.
    + apply N.bits_inj. intros i. destruct (N.lt_ge_cases i n) as [L|L].
      * now rewrite N.mod_pow2_bits_low.
      * rewrite N.mod_pow2_bits_high by assumption. symmetry; auto.
Qed.

Lemma shiftl_bits x s i : N.testbit (N.shiftl x s) i = (s <=? i) && N.testbit x (i - s).
Proof.
  destruct (N.leb_spec s i).
  - now rewrite N.shiftl_spec_high'.
  - now rewrite N.shiftl_spec_low.
Qed.

Lemma one_bits i : N.testbit 1 i = (i =? 0).
Proof. destruct i; [reflexivity|]. destruct p; reflexivity. Qed.

Lemma mask1_bits s i : N.testbit (N.shiftl 1 s) i = (i =? s).
Proof.
  rewrite shiftl_bits, one_bits.
  destruct (N.leb_spec s i), (N.eqb_spec (i - s) 0), (N.eqb_spec i s); try reflexivity; lia.
Qed.

Lemma lowmask_bits s i : N.testbit (N.shiftl 1 s - 1) i = (i <? s).
Proof.
  rewrite N.shiftl_1_l, N.sub_1_r, <- N.ones_equiv.
  destruct (N.ltb_spec i s); [now apply N.ones_spec_low | now apply N.ones_spec_high].
Qed.

Lemma testbit_ext_lt x y n : x < 2 ^ n -> y < 2 ^ n ->
  (forall i, i < n -> N.testbit x i = N.testbit y i) -> x = y.
Proof.
  intros Hx Hy H. apply N.bits_inj. intros i. destruct (N.lt_ge_cases i n); [auto|].
  rewrite lt_pow2_bits in Hx, Hy. now rewrite Hx, Hy.
Qed.

Lemma land_lt x y n : x < 2 ^ n -> N.land x y < 2 ^ n.
Proof. rewrite !lt_pow2_bits. intros H i Hi. now rewrite N.land_spec, H. Qed.

Lemma lor_lt x y n : x < 2 ^ n -> y < 2 ^ n -> N.lor x y < 2 ^ n.
Proof. rewrite !lt_pow2_bits. intros H H' i Hi. now rewrite N.lor_spec, H, H'. Qed.

Lemma lxor_lt x y n : x < 2 ^ n -> y < 2 ^ n -> N.lxor x y < 2 ^ n.
Proof. rewrite !lt_pow2_bits. intros H H' i Hi. now rewrite N.lxor_spec, H, H'. Qed.

Lemma shiftr_lt x s n : x < 2 ^ n -> N.shiftr x s < 2 ^ n.
Proof. rewrite !lt_pow2_bits. intros H i Hi. rewrite N.shiftr_spec'. apply H. lia. Qed.

Close Scope N_scope.

Section Bits.
Variable w : nat.
Context {Hw : width w}.

Let Wpos : 0 < w := width_pos w Hw.

Lemma w_le_pw : w <= pw w.
Proof. unfold pw; lia. Qed.

Lemma GetBitIndex_mod i : GetBitIndex w i = i mod w.
Proof.
  unfold GetBitIndex. destruct (width_pow2 w Hw) as [k Hk].
  rewrite Hk. replace (2 ^ k - 1) with (Nat.ones k) by (rewrite Nat.ones_equiv; lia).
  apply Nat.land_ones.
Qed.

Lemma GetBlockIndex_div i : GetBlockIndex w i = i / w.
Proof. reflexivity. Qed.

(** Number of blocks for [n] bits. *)
Definition nblocks (n : nat) : nat := (n + w - 1) / w.

Lemma divmod_w n : n = w * (n / w) + n mod w /\ n mod w < w.
Proof. split; [apply Nat.div_mod; lia | apply Nat.mod_upper_bound; lia]. Qed.

Lemma nblocks_spec n : n <= w * nblocks n /\ w * nblocks n < n + w.
Proof.
  unfold nblocks. pose proof (Nat.div_mod (n + w - 1) w). 
  pose proof (Nat.mod_upper_bound (n + w - 1) w). lia.
Qed.

Lemma div_unique_w q r : r < w -> (w * q + r) / w = q.
Proof. intros; symmetry; apply Nat.div_unique with r; lia. Qed.
Lemma mod_unique_w q r : r < w -> (w * q + r) mod w = r.
Proof. intros; symmetry; apply Nat.mod_unique with q; lia. Qed.

Lemma ComputeBlockCount_nblocks n : ComputeBlockCount w n = nblocks n.
Proof.
  unfold ComputeBlockCount. rewrite GetBitIndex_mod, GetBlockIndex_div.
  destruct (divmod_w n) as [H1 H2]. unfold nblocks.
  destruct (Nat.eqb_spec (n mod w) 0) as [E|E].
  - rewrite Nat.add_0_r. apply Nat.div_unique with (w - 1); lia.
  - apply Nat.div_unique with (n mod w - 1); lia.
Qed.

Lemma nblocks_cases n :
  (n mod w = 0 /\ nblocks n = n / w /\ w * nblocks n = n) \/
  (n mod w <> 0 /\ nblocks n = n / w + 1 /\ w * nblocks n = w * (n / w) + w).
Proof.
  rewrite <- ComputeBlockCount_nblocks. unfold ComputeBlockCount.
  rewrite GetBitIndex_mod, GetBlockIndex_div. destruct (divmod_w n) as [H1 H2].
  destruct (Nat.eqb_spec (n mod w) 0); [left|right]; lia.
Qed.

Lemma wmul_le a b : w * a <= w * b -> a <= b.
Proof. intros H. apply Nat.mul_le_mono_pos_l with w; [exact Wpos | exact H]. Qed.
Lemma wmul_lt a b : w * a < w * b -> a < b.
Proof. intros H. apply Nat.mul_lt_mono_pos_l with w; [exact Wpos | exact H]. Qed.
Lemma wmul_mono a b : a <= b -> w * a <= w * b.
Proof. intros H. now apply Nat.mul_le_mono_l. Qed.
Lemma wmul_inj a b : w * a = w * b -> a = b.
Proof. intros H. apply Nat.mul_cancel_l with w; [lia | exact H]. Qed.
Lemma wmul_succ a : 0 < a -> w * (a - 1) + w = w * a.
Proof. intros H. replace a with (S (a - 1)) at 2 by lia. rewrite Nat.mul_succ_r. reflexivity. Qed.

Lemma div_lt_nblocks i n : i < n -> i / w < nblocks n.
Proof.
  intros H. destruct (divmod_w i), (nblocks_spec n).
  apply Nat.nle_gt. intro C. assert (w * nblocks n <= w * (i / w)) by (apply Nat.mul_le_mono_l; lia). lia.
Qed.

Lemma nblocks_le a b : a <= b -> nblocks a <= nblocks b.
Proof. intros; unfold nblocks. apply Nat.div_le_mono; lia. Qed.

Lemma nblocks_0 n : nblocks n = 0 <-> n = 0.
Proof.
  destruct (nblocks_spec n). split; intros H1.
  - rewrite H1 in *. lia.
  - subst. unfold nblocks. rewrite Nat.div_small; lia.
Qed.

(** ** One block *)
Open Scope N_scope.

Lemma trunc_bits x i : N.testbit (trunc w x) i = (i <? N.of_nat w) && N.testbit x i.
Proof.
  unfold trunc. destruct (N.ltb_spec i (N.of_nat w)) as [H|H].
  - now rewrite N.mod_pow2_bits_low.
  - now rewrite N.mod_pow2_bits_high.
Qed.

Lemma trunc_lt x : trunc w x < 2 ^ N.of_nat w.
Proof. unfold trunc. apply N.mod_lt. apply N.pow_nonzero. lia. Qed.

Lemma block_high x i : x < 2 ^ N.of_nat w -> N.of_nat w <= i -> N.testbit x i = false.
Proof. intros H; revert i; now apply lt_pow2_bits. Qed.

Lemma trunc_id x : x < 2 ^ N.of_nat w -> trunc w x = x.
Proof. intros; unfold trunc; now apply N.mod_small. Qed.

Lemma full_bits i : N.testbit (fullBitMask w) i = (i <? N.of_nat w).
Proof.
  unfold fullBitMask. destruct (N.ltb_spec i (N.of_nat w)).
  - now apply N.ones_spec_low.
  - now apply N.ones_spec_high.
Qed.

Lemma full_lt : fullBitMask w < 2 ^ N.of_nat w.
Proof. apply lt_pow2_bits. intros i Hi. rewrite full_bits. apply N.ltb_ge. lia. Qed.

Lemma shl_done x s : (s < w)%nat -> shl w x s = Done (trunc w (N.shiftl x (N.of_nat s))).
Proof. intros H; unfold shl. pose proof w_le_pw. destruct (Nat.ltb_spec s (pw w)); [reflexivity|lia]. Qed.

Lemma shr_done x s : (s < w)%nat -> shr w x s = Done (N.shiftr x (N.of_nat s)).
Proof. intros H; unfold shr. pose proof w_le_pw. destruct (Nat.ltb_spec s (pw w)); [reflexivity|lia]. Qed.

Lemma bnot_bits x i : N.testbit (bnot w x) i = (i <? N.of_nat w) && negb (N.testbit x i).
Proof.
  unfold bnot. rewrite N.lxor_spec, trunc_bits, full_bits.
  destruct (i <? N.of_nat w), (N.testbit x i); reflexivity.
Qed.

Lemma bnot_lt x : bnot w x < 2 ^ N.of_nat w.
Proof. apply lt_pow2_bits. intros i Hi. rewrite bnot_bits. now destruct (N.ltb_spec i (N.of_nat w)); [lia|]. Qed.
Lemma zero_lt : 0 < 2 ^ N.of_nat w.
Proof. apply N.neq_0_lt_0, N.pow_nonzero. lia. Qed.

Close Scope N_scope.

(** ** Bits of a list of blocks *)
Definition lbit (l : list N) (k : nat) : bool := N.testbit (nth (k / w) l 0%N) (N.of_nat (k mod w)).

Definition small (l : list N) : Prop := Forall (fun x => (x < 2 ^ N.of_nat w)%N) l.

Lemma small_nth l i : small l -> (nth i l 0 < 2 ^ N.of_nat w)%N.
Proof. intros H. apply (Forall_nth_default (fun x => x < 2 ^ N.of_nat w)%N); [exact H | apply zero_lt]. Qed.

Lemma lbit_upd l i x k : i < length l ->
  lbit (upd l i x) k = if k / w =? i then N.testbit x (N.of_nat (k mod w)) else lbit l k.
Proof.
  intros H. unfold lbit. rewrite nth_upd.
  destruct (Nat.ltb_spec i (length l)); [|lia]. rewrite andb_true_r.
  now destruct (k / w =? i).
Qed.

Lemma lbit_high l k : w * length l <= k -> lbit l k = false.
Proof.
  intros H. unfold lbit. rewrite nth_overflow; [apply N.bits_0|].
  apply Nat.div_le_lower_bound; lia.
Qed.

(** Bits of a single block in terms of [lbit]. *)
Lemma lbit_at l i j : j < w -> lbit l (w * i + j) = N.testbit (nth i l 0%N) (N.of_nat j).
Proof. intros H. unfold lbit. now rewrite div_unique_w, mod_unique_w. Qed.

Lemma nth_bits l i j : small l -> N.testbit (nth i l 0%N) (N.of_nat j) = if j <? w then lbit l (w * i + j) else false.
Proof.
  intros H. destruct (Nat.ltb_spec j w).
  - now rewrite lbit_at.
  - apply block_high; [now apply small_nth | lia].
Qed.

Lemma lbit_ext l1 l2 : small l1 -> small l2 -> length l1 = length l2 ->
  (forall k, k < w * length l1 -> lbit l1 k = lbit l2 k) -> l1 = l2.
Proof.
  intros S1 S2 HL H. apply (list_ext 0%N); [exact HL|]. intros i Hi.
  apply testbit_ext_lt with (N.of_nat w); [now apply small_nth | now apply small_nth |].
  intros j Hj. replace j with (N.of_nat (N.to_nat j)) by lia.
  rewrite <- !lbit_at by lia. apply H.
  assert (w * (i + 1) <= w * length l1) by (apply Nat.mul_le_mono_l; lia). lia.
Qed.

End Bits.
