(** Property C158: the bit functions of MathUtils agree with one another. *)
From Coq Require Import Permutation.
From Verif Require Import Base CInt MathModel PropMath.
Open Scope Z_scope.

Definition width_of (t : ity) : nat := Z.to_nat (wid t).
Lemma unsigned_facts t : In t unsigned_types -> In t int_types /\ (wid t = 8 \/ wid t = 16 \/ wid t = 32 \/ wid t = 64) /\ tmin t = 0 /\ tmax t = 2 ^ wid t - 1.
Proof. intros [<-|[<-|[<-|[<-|[]]]]]; (split; [cbn; tauto|]); (split; [cbn; tauto|]); split; reflexivity. Qed.
Lemma bits_eq w x y : 0 <= w -> 0 <= x < 2 ^ w -> 0 <= y < 2 ^ w -> (forall i, 0 <= i < w -> Z.testbit x i = Z.testbit y i) -> x = y.
Proof.
  intros Hw Hx Hy H. apply Z.bits_inj'. intros i Hi. destruct (Z.lt_ge_cases i w) as [L|L]; [apply H; lia|].
  rewrite <- (Z.mod_small x (2 ^ w)), <- (Z.mod_small y (2 ^ w)) by assumption. now rewrite !Z.mod_pow2_bits_high by lia.
Qed.

(** ** Counting after a permutation of the positions *)
Definition cnt (p : nat -> bool) (n : nat) : nat := length (filter p (seq 0 n)).
Lemma filter_perm {A} (p : A -> bool) l m : Permutation l m -> length (filter p l) = length (filter p m).
Proof. induction 1; cbn; [reflexivity| |..]; [destruct (p x); cbn; congruence | destruct (p x), (p y); reflexivity | congruence]. Qed.
Lemma filter_map_length {A B} (f : A -> B) p l : length (filter p (map f l)) = length (filter (fun x => p (f x)) l).
Proof. induction l as [|x l IH]; [reflexivity|]. cbn. destruct (p (f x)); cbn; congruence. Qed.
Lemma cnt_involution (s : nat -> nat) p n : (forall i, (i < n)%nat -> (s i < n)%nat /\ s (s i) = i) -> cnt (fun i => p (s i)) n = cnt p n.
Proof.
  intros H. unfold cnt. rewrite <- filter_map_length. apply filter_perm. apply NoDup_Permutation.
  - assert (G : forall l, NoDup l -> (forall i, In i l -> (i < n)%nat) -> NoDup (map s l)).
    { induction l as [|i l IH]; intros N B; [constructor|]. inversion N as [|? ? N1 N2]. cbn. constructor; [|apply IH; [assumption | intros; apply B; now right]].
      rewrite in_map_iff. intros (j & E & J). apply N1. rewrite <- (proj2 (H i (B i (or_introl eq_refl)))), <- E, (proj2 (H j (B j (or_intror J)))). exact J. }
    apply G; [apply seq_NoDup | intros i Hi; apply in_seq in Hi; lia].
  - apply seq_NoDup.
  - intros x. rewrite in_map_iff, in_seq. split.
    + intros (i & <- & I). apply in_seq in I. destruct (H i ltac:(lia)). lia.
    + intros Hx. exists (s x). destruct (H x ltac:(lia)). split; [assumption|]. apply in_seq. lia.
Qed.
Lemma cnt_ext p q n : (forall i, (i < n)%nat -> p i = q i) -> cnt p n = cnt q n.
Proof. intros H. unfold cnt. f_equal. apply filter_ext_in. intros i Hi. apply in_seq in Hi. apply H. lia. Qed.
Lemma count_is t v : In t unsigned_types -> 0 <= v <= tmax t -> CountBits_rt t v = cnt (fun i => Z.testbit v (Z.of_nat i)) (width_of t).
Proof. intros Ht Hv. exact (proj1 (C19_count_bits t v (proj1 (unsigned_facts t Ht)) Hv)). Qed.

Lemma swap_bits t v : In t unsigned_types -> 0 <= v <= tmax t -> 0 <= ByteSwap t v <= tmax t /\
  forall k j, 0 <= k < wid t / 8 -> 0 <= j < 8 -> Z.testbit (ByteSwap t v) (8 * k + j) = Z.testbit v (8 * (wid t / 8 - 1 - k) + j).
Proof.
  intros Ht Hv. destruct (unsigned_facts t Ht) as (HI & _ & Hm & _). destruct (C25_byte_swap t v HI ltac:(lia)) as (B & _ & S). split; [lia|]. intros k j Hk Hj.
  assert (E : forall x m, 0 <= m -> Z.testbit ((x / 2 ^ (8 * m)) mod 2 ^ 8) j = Z.testbit x (8 * m + j)) by (intros x m Hm'; rewrite Z.mod_pow2_bits_low, Z.div_pow2_bits by lia; f_equal; lia).
  rewrite <- (E (ByteSwap t v) k), <- (E v) by lia. now rewrite S.
Qed.

(** Reversing bits or bytes keeps the number of bits set. *)
Theorem C158_count : forall t v, In t unsigned_types -> 0 <= v <= tmax t ->
  (exists r, ReverseBits t v = Done r /\ CountBits_rt t r = CountBits_rt t v) /\ CountBits_rt t (ByteSwap t v) = CountBits_rt t v.
Proof.
  intros t v Ht Hv. destruct (unsigned_facts t Ht) as (HI & HW & Hm & HM). split.
  - destruct (C26_reverse_bits t v HI ltac:(lia)) as (r & E & B & R & _). exists r. split; [exact E|]. rewrite !count_is by (trivial; lia).
    rewrite <- (cnt_involution (fun i => width_of t - 1 - i)%nat (fun i => Z.testbit v (Z.of_nat i))) by (intros; lia). apply cnt_ext. unfold width_of. intros i Hi. rewrite R by lia. f_equal. lia.
  - destruct (swap_bits t v Ht Hv) as (B & S). rewrite !count_is by trivial.
    rewrite <- (cnt_involution (fun i => 8 * (width_of t / 8 - 1 - i / 8) + i mod 8)%nat (fun i => Z.testbit v (Z.of_nat i))).
    + apply cnt_ext. intros i Hi. assert (D := Nat.div_mod i 8 ltac:(lia)). assert (M := Nat.mod_upper_bound i 8 ltac:(lia)). replace (Z.of_nat i) with (8 * Z.of_nat (i / 8) + Z.of_nat (i mod 8)) by lia.
      rewrite S; [f_equal|..]; unfold width_of in *; destruct HW as [W|[W|[W|W]]]; rewrite W in *; cbn in Hi |- *; lia.
    + intros i Hi. assert (D := Nat.div_mod i 8 ltac:(lia)). assert (M := Nat.mod_upper_bound i 8 ltac:(lia)). set (q := (i / 8)%nat) in *. set (m := (i mod 8)%nat) in *. set (b := (width_of t / 8)%nat).
      assert (Hb : (width_of t = 8 * b)%nat) by (unfold b, width_of; destruct HW as [W|[W|[W|W]]]; rewrite W; reflexivity). split; [lia|].
      replace ((8 * (b - 1 - q) + m) / 8)%nat with (b - 1 - q)%nat by (apply (Nat.div_unique _ 8 _ m); lia). replace ((8 * (b - 1 - q) + m) mod 8)%nat with m by (apply (Nat.mod_unique _ 8 (b - 1 - q)); lia). lia.
Qed.
Print Assumptions C158_count.
(** The two reversals commute. *)
Theorem C158_reversals : forall t v, In t unsigned_types -> 0 <= v <= tmax t -> exists r, ReverseBits t v = Done r /\ ReverseBits t (ByteSwap t v) = Done (ByteSwap t r).
Proof.
  intros t v Ht Hv. destruct (unsigned_facts t Ht) as (HI & HW & Hm & HM). destruct (C26_reverse_bits t v HI ltac:(lia)) as (r & E & B & R & _). exists r. split; [exact E|].
  destruct (swap_bits t v Ht Hv) as (Bv & Sv). destruct (swap_bits t r Ht ltac:(lia)) as (Br & Sr). destruct (C26_reverse_bits t (ByteSwap t v) HI ltac:(lia)) as (x & -> & Bx & X & _). f_equal.
  apply (bits_eq (wid t)); try lia. intros i Hi. rewrite X by exact Hi. set (n := wid t / 8) in *. assert (Hn : wid t = 8 * n) by (unfold n; destruct HW as [W|[W|[W|W]]]; rewrite W; reflexivity).
  assert (D := Z.div_mod i 8 ltac:(lia)). assert (M := Z.mod_pos_bound i 8 ltac:(lia)). set (q := i / 8) in *. set (m := i mod 8) in *.
  replace (wid t - 1 - i) with (8 * (n - 1 - q) + (7 - m)) by lia. rewrite Sv by lia. rewrite D, Sr by lia. rewrite R by lia. f_equal. lia.
Qed.
Print Assumptions C158_reversals.
(** The first bit of the reversal is the last bit. *)
Lemma first_is t v k : In t unsigned_types -> 0 <= v <= tmax t -> 0 <= k -> Z.testbit v k = true -> (forall i, 0 <= i < k -> Z.testbit v i = false) -> FindFirstBit_rt t v = Z.to_nat (k + 1).
Proof.
  intros Ht Hv Hk T Z0. destruct (unsigned_facts t Ht) as (HI & _ & Hm & _). destruct (C20_find_first_bit t v HI ltac:(lia)) as (r & -> & _ & [(_ & ->)|(Hr & _ & T' & Z')]); [rewrite Z.bits_0 in T; discriminate|].
  destruct (Z.lt_trichotomy (Z.of_nat r - 1) k) as [L|[L|L]]; [rewrite Z0 in T' by lia; discriminate | lia | rewrite Z' in T by lia; discriminate].
Qed.
Lemma last_is t v k : In t unsigned_types -> 0 <= v <= tmax t -> 0 <= k -> 2 ^ k <= v < 2 ^ (k + 1) -> FindLastBit_rt t v = Done (k + 1).
Proof.
  intros Ht Hv Hk B. destruct (unsigned_facts t Ht) as (HI & _ & _ & _). destruct (C20_find_last_bit t v HI Hv) as (r & -> & _ & [(_ & ->)|(Hr & B')]); [pose proof (Z.pow_pos_nonneg 2 k); lia|]. f_equal.
  assert (k < r) by (apply (Z.pow_lt_mono_r_iff 2); lia). assert (r - 1 < k + 1) by (apply (Z.pow_lt_mono_r_iff 2); lia). lia.
Qed.
Lemma last_bounds v : 0 < v -> exists k, 0 <= k /\ 2 ^ k <= v < 2 ^ (k + 1).
Proof. intros H. exists (Z.log2 v). split; [apply Z.log2_nonneg|]. rewrite Z.add_1_r. now apply Z.log2_spec. Qed.
Theorem C158_first_and_last : forall t v, In t unsigned_types -> 0 < v <= tmax t ->
  exists r l, ReverseBits t v = Done r /\ FindLastBit_rt t v = Done l /\ Z.of_nat (FindFirstBit_rt t r) = wid t + 1 - l.
Proof.
  intros t v Ht Hv. destruct (unsigned_facts t Ht) as (HI & HW & Hm & HM). destruct (C26_reverse_bits t v HI ltac:(lia)) as (r & E & B & R & _). destruct (last_bounds v ltac:(lia)) as (k & Hk & K). exists r, (k + 1). split; [exact E|]. split; [apply last_is; trivial; lia|].
  assert (KW : k < wid t) by (apply (Z.pow_lt_mono_r_iff 2); lia). assert (LK : Z.log2 v = k) by (apply Z.log2_unique; lia).
  rewrite (first_is t r (wid t - 1 - k)); trivial; try lia.
  - rewrite R by lia. replace (wid t - 1 - (wid t - 1 - k)) with k by lia. rewrite <- LK. apply Z.bit_log2. lia.
  - intros i Hi. rewrite R by lia. apply Z.bits_above_log2; lia.
Qed.
Print Assumptions C158_first_and_last.
(** A power of two has one bit, which is the first and the last. *)
Lemma one_bit v : 0 < v -> (exists k, 0 <= k /\ v = 2 ^ k) <-> (exists k, 0 <= k /\ forall i, 0 <= i -> Z.testbit v i = (i =? k)).
Proof.
  intros Hv. split; intros (k & Hk & K); exists k; (split; [exact Hk|]).
  - intros i Hi. rewrite K, Z.pow2_bits_eqb by exact Hk. apply Z.eqb_sym.
  - apply Z.bits_inj'. intros i Hi. rewrite K, Z.pow2_bits_eqb by assumption. apply Z.eqb_sym.
Qed.
Theorem C158_power_of_two : forall t v, In t unsigned_types -> 0 < v <= tmax t ->
  exists r l, IsPow2 t v = Done r /\ FindLastBit_rt t v = Done l /\ (r = true <-> CountBits_rt t v = 1%nat) /\ (r = true <-> Z.of_nat (FindFirstBit_rt t v) = l).
Proof.
  intros t v Ht Hv. destruct (unsigned_facts t Ht) as (HI & HW & Hm & HM). destruct (C24_is_pow2 t v HI Hv) as (r & E & P). destruct (last_bounds v ltac:(lia)) as (k & Hk & K). exists r, (k + 1). split; [exact E|]. split; [apply last_is; trivial; lia|].
  assert (KW : k < wid t) by (apply (Z.pow_lt_mono_r_iff 2); lia). assert (LK : Z.log2 v = k) by (apply Z.log2_unique; lia). assert (TK : Z.testbit v k = true) by (rewrite <- LK; apply Z.bit_log2; lia).
  rewrite one_bit in P by lia. rewrite P. split.
  - rewrite count_is by (trivial; lia). unfold cnt. split.
    + intros (j & Hj & J). assert (j = k) as -> by (rewrite J in TK by exact Hk; lia).
      assert (EF : filter (fun i => Z.testbit v (Z.of_nat i)) (seq 0 (width_of t)) = filter (Nat.eqb (Z.to_nat k)) (seq 0 (width_of t))) by (apply filter_ext_in; intros i _; rewrite J by lia; apply eq_true_iff_eq; rewrite Z.eqb_eq, Nat.eqb_eq; lia). rewrite EF.
      assert (G : forall n, length (filter (Nat.eqb (Z.to_nat k)) (seq 0 n)) = if (Z.to_nat k <? n)%nat then 1%nat else 0%nat).
      { induction n as [|n IH]; [reflexivity|]. rewrite seq_S, filter_app, app_length, IH. cbn [filter Nat.add]. destruct (Nat.eqb_spec (Z.to_nat k) n) as [Q|Q]; cbn [length].
        - replace (Z.to_nat k <? n)%nat with false by lia. now replace (Z.to_nat k <? S n)%nat with true by lia.
        - rewrite Nat.add_0_r. destruct (Nat.ltb_spec (Z.to_nat k) n), (Nat.ltb_spec (Z.to_nat k) (S n)); lia || reflexivity. }
      rewrite G. now replace (Z.to_nat k <? width_of t)%nat with true by (unfold width_of; lia).
    + intros L. destruct (filter _ _) as [|j [|j' l]] eqn:F; try discriminate. exists k. split; [exact Hk|].
      assert (ALL : forall i, 0 <= i < wid t -> Z.testbit v i = true -> i = Z.of_nat j). { intros i Hi T. assert (I : In (Z.to_nat i) [j]) by (rewrite <- F; apply filter_In; split; [apply in_seq; unfold width_of; lia | now rewrite Z2Nat.id by lia]). destruct I as [->|[]]. lia. }
      intros i Hi. destruct (Z.eqb_spec i k) as [->|NE]; [exact TK|]. apply not_true_is_false. intros T. destruct (Z.lt_ge_cases i (wid t)) as [Q|Q]; [pose proof (ALL i ltac:(lia) T); pose proof (ALL k ltac:(lia) TK); lia|]. rewrite Z.bits_above_log2 in T by lia. discriminate.
  - split.
    + intros (j & Hj & J). assert (j = k) as -> by (rewrite J in TK by exact Hk; lia). rewrite (first_is t v k Ht ltac:(lia) Hk TK ltac:(intros i Hi; rewrite J by lia; lia)). lia.
    + intros F. destruct (C20_find_first_bit t v HI ltac:(lia)) as (f & EF & _ & [(_ & ->)|(Hr & _ & T' & Z')]); [lia|]. rewrite EF in F. exists k. split; [exact Hk|]. intros i Hi. destruct (Z.lt_trichotomy i k) as [Q|[->|Q]].
      * rewrite Z' by lia. lia.
      * rewrite TK. lia.
      * rewrite Z.bits_above_log2 by lia. lia.
Qed.
Print Assumptions C158_power_of_two.
(** IntegralLog2 is the last bit, where it is right (C21); IntegralLog2Pot is the first bit of a power of two. *)
Theorem C158_log2_partial : forall t v, In t unsigned_types -> 0 < v <= tmax t -> ~ 2 ^ 32 <= v < 2 ^ 33 -> exists r, IntegralLog2 t v = Done r /\ FindLastBit_rt t v = Done (r + 1).
Proof.
  intros t v Ht Hv H. destruct (C21_log2_partial t v (proj1 (unsigned_facts t Ht)) Hv H) as (r & E & B). exists r. split; [exact E|]. apply last_is; trivial; [lia|]. apply Z.le_ngt. intros N. rewrite (Z.pow_neg_r 2 r N) in B. destruct (Z.eq_dec r (-1)) as [->|Q]; [cbn in B; lia|]. rewrite (Z.pow_neg_r 2 (r + 1)) in B by lia. lia.
Qed.
Print Assumptions C158_log2_partial.
Theorem C158_log2_refuted : forall v, 2 ^ 32 <= v < 2 ^ 33 -> exists r, IntegralLog2 u64 v = Done r /\ FindLastBit_rt u64 v <> Done (r + 1).
Proof.
  intros v Hv. destruct (C21_log2_refuted u64 v (or_introl eq_refl) Hv) as (r & E & N). exists r. split; [exact E|]. rewrite (last_is u64 v 32); [intros Q; assert (32 + 1 = r + 1) by congruence; lia | cbn; tauto | | lia | exact Hv]. split; [lia|]. apply (Z.le_trans _ (2 ^ 33)); [lia|]. apply Z.leb_le. reflexivity.
Qed.
Print Assumptions C158_log2_refuted.
Theorem C158_log2_pot : forall t v, In t unsigned_types -> 0 < v <= tmax t -> IsPow2 t v = Done true -> IntegralLog2Pot t v = Done (Z.of_nat (FindFirstBit_rt t v) - 1).
Proof.
  intros t v Ht Hv P. destruct (C24_is_pow2 t v (proj1 (unsigned_facts t Ht)) Hv) as (r & E & R). rewrite P in E. injection E as <-. destruct (proj1 R eq_refl) as (k & Hk & ->). rewrite (C22_log2_pot t k (proj1 (unsigned_facts t Ht)) Hk) by lia. f_equal.
  rewrite (first_is t (2 ^ k) k); trivial; [lia|lia| |]; [now apply Z.pow2_bits_true|]. intros i Hi. apply Z.pow2_bits_false. lia.
Qed.
Print Assumptions C158_log2_pot.
(** The two functions that round up agree, their result is a power of two and rounding it again changes nothing. *)
Theorem C158_rounding : forall cpp20 t v k fuel, In t unsigned_types -> 0 < v <= 2 ^ k -> 0 <= k -> 2 ^ k <= tmax t -> wid t <= Z.of_nat fuel ->
  exists r, RoundToPow2 t v = Done r /\ GetNearestPowerOfTwo cpp20 fuel t v = Done r /\ IsPow2 t r = Done true /\ RoundToPow2 t r = Done r.
Proof.
  intros cpp20 t v k fuel Ht Hv Hk HM HF. pose proof (proj1 (unsigned_facts t Ht)) as HI. destruct (C24_round t v k HI Hv Hk HM) as (r & E & (j & Hj & J) & R1 & R2). exists r. split; [exact E|].
  destruct (C24_nearest cpp20 t v k fuel HI ltac:(lia) Hk HM HF) as (q & -> & (m & Hm & M) & Q1 & Q2). assert (q = r) as -> by (pose proof (R2 m Hm ltac:(lia)); pose proof (Q2 j Hj ltac:(lia)); lia). split; [reflexivity|].
  assert (RK : r <= 2 ^ k) by (apply R2; lia). split.
  - destruct (C24_is_pow2 t r HI ltac:(lia)) as (x & -> & X). f_equal. apply X. now exists j.
  - destruct (C24_round t r k HI ltac:(lia) Hk HM) as (x & -> & (a & Ha & A) & X1 & X2). f_equal. pose proof (X2 j Hj ltac:(lia)). lia.
Qed.
Print Assumptions C158_rounding.

(** Setting, clearing and toggling a bit change the count by that bit. *)
Lemma cnt_change p q n k : (k < n)%nat -> (forall i, (i < n)%nat -> i <> k -> p i = q i) -> (cnt p n + (if q k then 1 else 0) = cnt q n + (if p k then 1 else 0))%nat.
Proof.
  assert (S1 : forall p n, cnt p (S n) = (cnt p n + (if p n then 1 else 0))%nat) by (intros; unfold cnt; rewrite seq_S, filter_app, app_length; cbn [filter Nat.add]; now destruct (p0 n0)).
  intros Hk H. induction n as [|n IH]; [lia|]. rewrite !S1. destruct (Nat.eq_dec k n) as [->|NE].
  - rewrite (cnt_ext p q n) by (intros i Hi; apply H; lia). lia.
  - rewrite (H n) by lia. specialize (IH ltac:(lia) ltac:(intros i Hi; apply H; lia)). lia.
Qed.
Theorem C158_count_single : forall t v bit, In t unsigned_types -> 0 <= v <= tmax t -> 0 <= bit < wid t ->
  exists s c g, SetBit t v bit = Done s /\ ClearBit t v bit = Done c /\ ToggleBit t v bit = Done g /\
    CountBits_rt t s = S (CountBits_rt t c) /\ CountBits_rt t v = CountBits_rt t (if Z.testbit v bit then s else c) /\ CountBits_rt t g = CountBits_rt t (if Z.testbit v bit then c else s).
Proof.
  intros t v bit Ht Hv Hb. destruct (unsigned_facts t Ht) as (HI & HW & Hm & HM). destruct (C27_single_bits t v bit HI ltac:(lia) Hb) as ((s & Es & Bs & S) & (c & Ec & Bc & C) & (g & Eg & Bg & G) & _). exists s, c, g. repeat (split; [assumption|]).
  assert (F : forall x y (a b : bool), 0 <= x <= tmax t -> 0 <= y <= tmax t -> (forall i, 0 <= i < wid t -> Z.testbit x i = if i =? bit then a else Z.testbit v i) -> (forall i, 0 <= i < wid t -> Z.testbit y i = if i =? bit then b else Z.testbit v i) ->
    (CountBits_rt t x + (if b then 1 else 0) = CountBits_rt t y + (if a then 1 else 0))%nat).
  { intros x y a b Bx By X Y. rewrite !count_is by trivial. pose proof (cnt_change (fun i => Z.testbit x (Z.of_nat i)) (fun i => Z.testbit y (Z.of_nat i)) (width_of t) (Z.to_nat bit) ltac:(unfold width_of; lia)) as K. cbv beta in K. rewrite Z2Nat.id, X, Y, Z.eqb_refl in K by lia. apply K.
    unfold width_of. intros i Hi NE. rewrite X, Y by lia. now replace (Z.of_nat i =? bit) with false by lia. }
  assert (V : forall i, 0 <= i < wid t -> Z.testbit v i = if i =? bit then Z.testbit v bit else Z.testbit v i) by (intros i _; now destruct (Z.eqb_spec i bit) as [->|]).
  assert (G' : forall i, 0 <= i < wid t -> Z.testbit g i = if i =? bit then negb (Z.testbit v bit) else Z.testbit v i) by (intros i Hi; rewrite G by exact Hi; now destruct (Z.eqb_spec i bit) as [->|]).
  split; [|split].
  - pose proof (F s c true false ltac:(lia) ltac:(lia) S C). cbv iota in *. lia.
  - pose proof (F v s _ true Hv ltac:(lia) V S). pose proof (F v c _ false Hv ltac:(lia) V C). destruct (Z.testbit v bit); cbv iota in *; lia.
  - pose proof (F g s _ true ltac:(lia) ltac:(lia) G' S). pose proof (F g c _ false ltac:(lia) ltac:(lia) G' C). destruct (Z.testbit v bit); cbn [negb] in *; cbv iota in *; lia.
Qed.
Print Assumptions C158_count_single.

Example C158_example : ReverseBits u16 0x1234 = Done 0x2C48 /\ ByteSwap u16 0x1234 = 0x3412 /\ CountBits_rt u16 0x2C48 = 5%nat /\ FindLastBit_rt u16 0x1234 = Done 13 /\ FindFirstBit_rt u16 0x2C48 = 4%nat /\
  IsPow2 u8 64 = Done true /\ IntegralLog2Pot u8 64 = Done 6 /\ RoundToPow2 u8 100 = Done 128 /\ GetNearestPowerOfTwo true 8 u8 100 = Done 128.
Proof. vm_compute. tauto. Qed.
