(** Proofs about MathModel.v (first part): conversions, bit counting, logarithms, powers of two. *)
From Verif Require Import Base CInt MathModel BitsetSpec BitsetFind.
Open Scope Z_scope.
Ltac Zify.zify_post_hook ::= Z.div_mod_to_equations.

Ltac each_type H := cbn [In unsigned_types signed_types int_types app] in H;
  repeat (destruct H as [<-|H]); [..|contradiction].
Ltac types := cbn [sgn wid u8 u16 u32 u64 i8 i16 i32 i64 promote make_unsigned builtin_width Z.ltb Z.eqb Z.leb Z.compare Pos.compare Pos.compare_cont Pos.eqb] in *.
Ltac ranges := unfold in_range, tmin, tmax in *; types; rewrite ?Z2Nat.id in * by lia.

(** ** Conversions *)
Lemma cast_id t z : 0 < wid t -> in_range t z = true -> cast t z = z.
Proof.
  intros Hw H. unfold in_range, tmin, tmax in H. unfold cast.
  assert (P : 2 ^ wid t = 2 * 2 ^ (wid t - 1)) by (rewrite <- Z.pow_succ_r by lia; f_equal; lia).
  pose proof (Z.pow_pos_nonneg 2 (wid t - 1) ltac:(lia) ltac:(lia)).
  destruct (sgn t).
  - destruct (Z.le_gt_cases 0 z) as [Hz|Hz].
    + rewrite Z.mod_small by lia. destruct (Z.ltb_spec z (2 ^ (wid t - 1))); lia.
    + replace (z mod 2 ^ wid t) with (z + 2 ^ wid t).
      * destruct (Z.ltb_spec (z + 2 ^ wid t) (2 ^ (wid t - 1))); lia.
      * rewrite <- (Z.mod_add z 1) by lia. rewrite Z.mod_small by lia. lia.
  - rewrite Z.mod_small; lia.
Qed.

Lemma cast_unsigned_mod t z : sgn t = false -> cast t z = z mod 2 ^ wid t.
Proof. unfold cast. now intros ->. Qed.

Lemma arith_id t z : In t int_types -> in_range (promote t) z = true -> arith t z = Done z.
Proof.
  intros Ht H. unfold arith. destruct (sgn (promote t)) eqn:E; [now rewrite H|]. f_equal. apply cast_id; [|exact H].
  each_type Ht; types; lia.
Qed.

Lemma unsigned_in t : In t unsigned_types -> In t int_types /\ sgn t = false /\ (wid t = 8 \/ wid t = 16 \/ wid t = 32 \/ wid t = 64).
Proof. intros H. each_type H; cbn; tauto. Qed.
Lemma type_widths t : In t int_types -> wid t = 8 \/ wid t = 16 \/ wid t = 32 \/ wid t = 64.
Proof. intros H. each_type H; cbn; tauto. Qed.

(** ** Population count *)
(** The number of one bits among the [n] lowest. *)
Definition ones_count (n : nat) (v : Z) : nat := length (filter (fun i => Z.testbit v (Z.of_nat i)) (seq 0 n)).

Lemma count_occ_filter (l : list bool) : count_occ Bool.bool_dec l true = length (filter (fun x => x) l).
Proof. induction l as [|[] l IH]; cbn; [reflexivity | now rewrite IH | exact IH]. Qed.

Lemma filter_map_length {A B} (f : A -> B) (p : B -> bool) l : length (filter p (map f l)) = length (filter (fun x => p (f x)) l).
Proof. induction l as [|x l IH]; [reflexivity|]. cbn. destruct (p (f x)); cbn; now rewrite IH. Qed.

Lemma popcount_Z n v : 0 <= v < 2 ^ Z.of_nat n -> builtin_popcount v = ones_count n v.
Proof.
  intros H. replace v with (Z.of_N (Z.to_N v)) at 1 by (now rewrite Z2N.id by lia).
  rewrite (popcount_spec n).
  - unfold s_count. rewrite count_occ_filter. unfold nbits, ones_count. rewrite filter_map_length. f_equal.
    apply filter_ext. intros i. rewrite <- (Z2N.id v) at 2 by lia. rewrite Z.testbit_of_N' by lia. f_equal. lia.
  - apply N2Z.inj_lt. rewrite N2Z.inj_pow, nat_N_Z, Z2N.id by lia. cbn. lia.
Qed.

Lemma popcount_clear_lowest p : exists r, Z.land (Zpos p) (Zpos p - 1) = r /\ 0 <= r < Zpos p /\ builtin_popcount (Zpos p) = S (builtin_popcount r).
Proof.
  eexists. split; [reflexivity|]. revert p.
  assert (D : forall r, 0 <= r -> builtin_popcount (2 * r) = builtin_popcount r).
  { intros [|q|q] H; [reflexivity | reflexivity | lia]. }
  induction p as [q IH|q IH|].
  - replace (Z.pos q~1 - 1) with (Z.pos q~0) by lia.
    replace (Z.land (Z.pos q~1) (Z.pos q~0)) with (Z.pos q~0).
    + split; [lia|]. reflexivity.
    + symmetry. apply Z.bits_inj'. intros i Hi. rewrite Z.land_spec.
      replace (Z.pos q~0) with (2 * Z.pos q) by lia. replace (Z.pos q~1) with (2 * Z.pos q + 1) by lia.
      destruct (Z.eq_dec i 0) as [->|Hne]; [now rewrite Z.testbit_even_0, Z.testbit_odd_0|].
      replace i with (Z.succ (i - 1)) by lia. rewrite Z.testbit_odd_succ, Z.testbit_even_succ by lia. apply andb_diag.
  - replace (Z.pos q~0 - 1) with (2 * (Z.pos q - 1) + 1) by lia.
    assert (E : Z.land (Z.pos q~0) (2 * (Z.pos q - 1) + 1) = 2 * Z.land (Z.pos q) (Z.pos q - 1)).
    { apply Z.bits_inj'. intros i Hi. rewrite Z.land_spec. replace (Z.pos q~0) with (2 * Z.pos q) by lia.
      destruct (Z.eq_dec i 0) as [->|Hne].
      - now rewrite !Z.testbit_even_0.
      - replace i with (Z.succ (i - 1)) by lia. rewrite Z.testbit_odd_succ, !Z.testbit_even_succ, Z.land_spec by lia. reflexivity. }
    rewrite E. destruct IH as [IH1 IH2]. split; [lia|]. rewrite D by lia. change (builtin_popcount (Z.pos q~0)) with (builtin_popcount (Z.pos q)). exact IH2.
  - change (Z.land 1 (1 - 1)) with 0. split; [lia | reflexivity].
Qed.

Lemma popcount_bound n v : 0 <= v < 2 ^ Z.of_nat n -> (builtin_popcount v <= n)%nat.
Proof.
  intros H. rewrite (popcount_Z n v H). unfold ones_count.
  assert (G : forall (l : list nat) f, (length (filter f l) <= length l)%nat).
  { induction l as [|x l IH]; intros f; cbn; [lia|]. destruct (f x); cbn; specialize (IH f); lia. }
  specialize (G (seq 0 n) (fun i => Z.testbit v (Z.of_nat i))). rewrite seq_length in G. exact G.
Qed.

Lemma CountBits_loop_spec t : In t int_types -> forall fuel v c, 0 <= v <= tmax t -> (builtin_popcount v <= fuel)%nat ->
  CountBits_loop fuel t v c = Done (c + builtin_popcount v)%nat.
Proof.
  intros Ht. induction fuel as [|fuel IH]; intros v c Hv HF.
  - destruct v as [|p|p]; [cbn; f_equal; lia | | lia]. destruct (popcount_clear_lowest p) as (r & _ & _ & E). lia.
  - cbn [CountBits_loop]. destruct v as [|p|p]; [cbn; f_equal; lia | | lia].
    change (Z.pos p =? 0) with false. cbv iota.
    rewrite (arith_id t) by (trivial; each_type Ht; ranges; lia). cbn [bind].
    destruct (popcount_clear_lowest p) as (r & -> & Hr & E).
    rewrite cast_id by (each_type Ht; ranges; lia). rewrite IH by lia. f_equal. lia.
Qed.

Lemma CountBits_ce_spec t v : In t int_types -> 0 <= v <= tmax t -> CountBits_ce t v = Done (ones_count (Z.to_nat (wid t)) v).
Proof.
  intros Ht Hv. assert (R : 0 <= v < 2 ^ Z.of_nat (Z.to_nat (wid t))) by (each_type Ht; ranges; lia).
  unfold CountBits_ce. rewrite CountBits_loop_spec; trivial.
  - now rewrite (popcount_Z _ v R).
  - now apply popcount_bound.
Qed.

Lemma ones_count_more n m v : 0 <= v < 2 ^ Z.of_nat n -> (n <= m)%nat -> ones_count m v = ones_count n v.
Proof.
  intros H Hm. rewrite <- (popcount_Z n v H). symmetry. apply popcount_Z.
  split; [lia|]. apply Z.lt_le_trans with (2 ^ Z.of_nat n); [lia|]. apply Z.pow_le_mono_r; lia.
Qed.

Lemma CountBits_rt_spec t v : In t int_types -> 0 <= v <= tmax t -> CountBits_rt t v = ones_count (Z.to_nat (wid t)) v.
Proof.
  intros Ht Hv. assert (R : 0 <= v < 2 ^ Z.of_nat (Z.to_nat (wid t))) by (each_type Ht; ranges; lia).
  unfold CountBits_rt. rewrite cast_id by (each_type Ht; ranges; lia).
  now apply popcount_Z.
Qed.

(** Run-time path on negative values: 32 or 64 bits are counted whatever the type. *)
Lemma CountBits_rt_negative t v : In t signed_types -> tmin t <= v < 0 ->
  CountBits_rt t v = ones_count (Z.to_nat (builtin_width t)) v.
Proof.
  intros Ht Hv. unfold CountBits_rt. rewrite cast_unsigned_mod by reflexivity.
  rewrite (popcount_Z (Z.to_nat (builtin_width t))) by (each_type Ht; ranges; lia).
  unfold ones_count. f_equal. apply filter_ext_in. intros i Hi. apply in_seq in Hi.
  apply Z.mod_pow2_bits_low. cbn [wid]. lia.
Qed.
(** Constant evaluation path on negative int and wider: the loop ends up subtracting 1 from the minimum. *)
Lemma neg_bits k u i : 0 <= k -> 0 <= u < 2 ^ k -> 0 <= i -> Z.testbit (u - 2 ^ k) i = if i <? k then Z.testbit u i else true.
Proof.
  intros Hk Hu Hi. destruct (Z.ltb_spec i k) as [H|H].
  - rewrite <- (Z.mod_pow2_bits_low (u - 2 ^ k) k) by assumption.
    replace (u - 2 ^ k) with (u + (-1) * 2 ^ k) by lia. rewrite Z.mod_add, Z.mod_small by lia. reflexivity.
  - replace i with ((i - k) + k) by lia. rewrite <- Z.div_pow2_bits by lia.
    replace (u - 2 ^ k) with (u + (-1) * 2 ^ k) by lia. rewrite Z.div_add, Z.div_small by lia. apply Z.bits_m1. lia.
Qed.

Lemma pow2_high u k i : 0 <= u < 2 ^ k -> k <= i -> Z.testbit u i = false.
Proof.
  intros Hu Hi. assert (0 <= k) by (destruct (Z.neg_nonneg_cases k) as [C|C]; [rewrite (Z.pow_neg_r 2 k C) in Hu; lia | exact C]).
  rewrite <- (Z.mod_small u (2 ^ k)) by lia. now apply Z.mod_pow2_bits_high.
Qed.

Lemma land_neg k u u' : 0 <= k -> 0 <= u < 2 ^ k -> 0 <= u' < 2 ^ k ->
  Z.land (u - 2 ^ k) (u' - 2 ^ k) = Z.land u u' - 2 ^ k.
Proof.
  intros Hk Hu Hu'. assert (L : 0 <= Z.land u u' < 2 ^ k).
  { split; [apply Z.land_nonneg; lia|].
    rewrite <- (Z.mod_small u (2 ^ k)) by lia. rewrite <- Z.land_ones, <- Z.land_assoc, (Z.land_comm (Z.ones k)), Z.land_assoc, Z.land_ones by lia.
    apply Z.mod_pos_bound. lia. }
  apply Z.bits_inj'. intros i Hi. rewrite Z.land_spec, !neg_bits, Z.land_spec by assumption.
  now destruct (i <? k).
Qed.

Lemma CountBits_loop_negative t : In t [i32; i64] -> forall fuel u c, 0 <= u < 2 ^ (wid t - 1) -> (builtin_popcount u < fuel)%nat ->
  CountBits_loop fuel t (u - 2 ^ (wid t - 1)) c = Fault FUB.
Proof.
  intros Ht. induction fuel as [|fuel IH]; intros u c Hu HF; [lia|].
  cbn [CountBits_loop]. replace (u - 2 ^ (wid t - 1) =? 0) with false by lia.
  destruct u as [|p|p]; [|destruct (popcount_clear_lowest p) as (r & E1 & Hr & E) | lia].
  - cbn [In] in Ht. destruct Ht as [<-|[<-|[]]]; reflexivity.
  - assert (Q : In t int_types) by (cbn [In] in Ht; destruct Ht as [<-|[<-|[]]]; cbn; tauto).
    rewrite (arith_id t) by (trivial; cbn [In] in Ht; destruct Ht as [<-|[<-|[]]]; ranges; lia). cbn [bind].
    replace (Z.pos p - 2 ^ (wid t - 1) - 1) with ((Z.pos p - 1) - 2 ^ (wid t - 1)) by lia.
    rewrite land_neg, E1; [|cbn [In] in Ht; destruct Ht as [<-|[<-|[]]]; ranges; lia | lia | lia].
    rewrite cast_id by (cbn [In] in Ht; destruct Ht as [<-|[<-|[]]]; ranges; lia).
    apply IH; lia.
Qed.

Lemma CountBits_ce_negative t v : In t [i32; i64] -> tmin t <= v < 0 -> CountBits_ce t v = Fault FUB.
Proof.
  intros Ht Hv. unfold CountBits_ce. replace v with ((v + 2 ^ (wid t - 1)) - 2 ^ (wid t - 1)) by lia.
  assert (R : 0 <= v + 2 ^ (wid t - 1) < 2 ^ Z.of_nat (Z.to_nat (wid t) - 1)).
  { cbn [In] in Ht; destruct Ht as [<-|[<-|[]]]; ranges; [change (Z.of_nat (Z.to_nat 32 - 1)) with 31 | change (Z.of_nat (Z.to_nat 64 - 1)) with 63]; lia. }
  apply CountBits_loop_negative; trivial.
  - cbn [In] in Ht; destruct Ht as [<-|[<-|[]]]; ranges; lia.
  - pose proof (popcount_bound _ _ R). cbn [In] in Ht; destruct Ht as [<-|[<-|[]]]; cbn [wid i32 i64] in *; lia.
Qed.

(** ** Finite sweeps *)
Fixpoint zseq (n : nat) (z : Z) : list Z := match n with O => [] | S k => z :: zseq k (z + 1) end.
Lemma zseq_in n : forall z x, z <= x < z + Z.of_nat n -> In x (zseq n z).
Proof.
  induction n as [|n IH]; intros z x H; [lia|]. cbn [zseq In]. destruct (Z.eq_dec z x); [auto|]. right. apply IH. lia.
Qed.
(** The list of a power-of-two number of consecutive values, without unary literals. *)
Fixpoint zpow (k : nat) (z : Z) : list Z := match k with O => [z] | S j => zpow j z ++ zpow j (z + 2 ^ Z.of_nat j) end.
Lemma zpow_in k : forall z x, z <= x < z + 2 ^ Z.of_nat k -> In x (zpow k z).
Proof.
  induction k as [|k IH]; intros z x H.
  - change (2 ^ Z.of_nat 0) with 1 in H. cbn. left. lia.
  - cbn [zpow]. apply in_or_app. rewrite Nat2Z.inj_succ, Z.pow_succ_r in H by lia.
    destruct (Z.lt_ge_cases x (z + 2 ^ Z.of_nat k)); [left | right]; apply IH; lia.
Qed.
Lemma sweep k z (p : Z -> bool) : forallb p (zpow k z) = true -> forall x, z <= x < z + 2 ^ Z.of_nat k -> p x = true.
Proof. intros H x Hx. rewrite forallb_forall in H. apply H. now apply zpow_in. Qed.

Lemma ones_count_split a b v : ones_count (a + b) v = (ones_count a v + length (filter (fun i => Z.testbit v (Z.of_nat i)) (seq a b)))%nat.
Proof. unfold ones_count. now rewrite seq_app, filter_app, app_length. Qed.
(** On negative signed char and short the loop goes on to the minimum, where the conversion back gives 0. *)
Lemma CountBits_loop_narrow t : In t [i8; i16] -> forall fuel u c, 0 <= u < 2 ^ (wid t - 1) -> (builtin_popcount u < fuel)%nat ->
  CountBits_loop fuel t (u - 2 ^ (wid t - 1)) c = Done (c + builtin_popcount u + 1)%nat.
Proof.
  intros Ht. induction fuel as [|fuel IH]; intros u c Hu HF; [lia|].
  cbn [CountBits_loop]. replace (u - 2 ^ (wid t - 1) =? 0) with false by lia.
  destruct u as [|p|p]; [|destruct (popcount_clear_lowest p) as (r & E1 & Hr & E) | lia].
  - cbn [In] in Ht. replace (c + builtin_popcount 0 + 1)%nat with (S c) by (cbn; lia). destruct Ht as [<-|[<-|[]]]; destruct fuel; reflexivity.
  - assert (Q : In t int_types) by (cbn [In] in Ht; destruct Ht as [<-|[<-|[]]]; cbn; tauto).
    rewrite (arith_id t) by (trivial; cbn [In] in Ht; destruct Ht as [<-|[<-|[]]]; ranges; lia). cbn [bind].
    replace (Z.pos p - 2 ^ (wid t - 1) - 1) with ((Z.pos p - 1) - 2 ^ (wid t - 1)) by lia.
    rewrite land_neg, E1; [|cbn [In] in Ht; destruct Ht as [<-|[<-|[]]]; ranges; lia | lia | lia].
    rewrite cast_id by (cbn [In] in Ht; destruct Ht as [<-|[<-|[]]]; ranges; lia).
    rewrite IH by lia. f_equal. lia.
Qed.
Lemma CountBits_ce_narrow_negative t v : In t [i8; i16] -> tmin t <= v < 0 -> CountBits_ce t v = Done (ones_count (Z.to_nat (wid t)) v).
Proof.
  intros Ht Hv. unfold CountBits_ce.
  assert (W : exists n, wid t = Z.of_nat n + 1 /\ Z.to_nat (wid t) = (n + 1)%nat /\ 0 <= v + 2 ^ Z.of_nat n < 2 ^ Z.of_nat n).
  { cbn [In] in Ht; destruct Ht as [<-|[<-|[]]]; ranges; [exists 7%nat | exists 15%nat]; (split; [reflexivity|]; split; [reflexivity|]; cbn; lia). }
  destruct W as (n & W1 & W2 & Hu). set (u := v + 2 ^ Z.of_nat n) in *.
  assert (V : v = u - 2 ^ Z.of_nat n) by lia.
  rewrite W2, V. replace (Z.of_nat n) with (wid t - 1) at 1 by lia.
  rewrite CountBits_loop_narrow; [|exact Ht | replace (wid t - 1) with (Z.of_nat n) by lia; exact Hu | pose proof (popcount_bound n u Hu); lia].
  f_equal. rewrite ones_count_split, (popcount_Z n u Hu). cbn [seq filter]. rewrite neg_bits by lia.
  destruct (Z.ltb_spec (Z.of_nat n) (Z.of_nat n)); [lia|]. cbn [length Nat.add]. f_equal. unfold ones_count. f_equal.
  apply filter_ext_in. intros i Hi. apply in_seq in Hi. rewrite neg_bits by lia. destruct (Z.ltb_spec (Z.of_nat i) (Z.of_nat n)); [reflexivity | lia].
Qed.

(** ... while the run-time path counts the sign extension too. *)
Lemma filter_all {A} (f : A -> bool) l : (forall x, In x l -> f x = true) -> filter f l = l.
Proof. induction l as [|x l IH]; intros H; cbn; [reflexivity|]. rewrite H by (now left). f_equal. apply IH. intros y Hy. apply H. now right. Qed.
Lemma CountBits_rt_narrow_negative t v : In t [i8; i16] -> tmin t <= v < 0 ->
  CountBits_rt t v = (ones_count (Z.to_nat (wid t)) v + (32 - Z.to_nat (wid t)))%nat.
Proof.
  intros Ht Hv. rewrite CountBits_rt_negative; [|cbn in *; tauto | exact Hv].
  assert (W : (Z.to_nat (builtin_width t) = Z.to_nat (wid t) + (32 - Z.to_nat (wid t)))%nat)
    by (cbn [In] in Ht; destruct Ht as [<-|[<-|[]]]; reflexivity).
  rewrite W, ones_count_split. f_equal. rewrite filter_all; [apply seq_length|].
  intros i Hi. apply in_seq in Hi. replace v with ((v + 2 ^ wid t) - 2 ^ wid t) by lia.
  cbn [In] in Ht; destruct Ht as [<-|[<-|[]]]; ranges; rewrite neg_bits by lia; destruct (Z.of_nat i <? _) eqn:Q; trivial; lia.
Qed.

(** ** Lowest and highest set bit *)
(** [r] is one plus the index of the lowest (highest) set bit among the [w] lowest, 0 when there is none. *)
Definition is_first_bit (w v r : Z) : Prop :=
  (r = 0 /\ forall i, 0 <= i < w -> Z.testbit v i = false) \/
  (1 <= r <= w /\ Z.testbit v (r - 1) = true /\ forall i, 0 <= i < r - 1 -> Z.testbit v i = false).
Definition is_last_bit (w v r : Z) : Prop :=
  (r = 0 /\ forall i, 0 <= i < w -> Z.testbit v i = false) \/
  (1 <= r <= w /\ Z.testbit v (r - 1) = true /\ forall i, r <= i < w -> Z.testbit v i = false).

Lemma nonzero_bit v w : 0 < w -> 0 < v < 2 ^ w -> exists i, 0 <= i < w /\ Z.testbit v i = true.
Proof.
  intros Hw Hv. exists (Z.log2 v). split; [|apply Z.bit_log2; lia]. split; [apply Z.log2_nonneg|].
  apply Z.log2_lt_pow2; lia.
Qed.

(** Values of a type are determined by their [wid] lowest bits. *)
Lemma zero_low t v : In t int_types -> in_range t v = true -> (forall i, 0 <= i < wid t -> Z.testbit v i = false) -> v = 0.
Proof.
  intros Ht Hv Hb. assert (M : v mod 2 ^ wid t = 0).
  { apply Z.bits_inj'. intros i Hi. rewrite Z.bits_0. destruct (Z.lt_ge_cases i (wid t)).
    - rewrite Z.mod_pow2_bits_low by assumption. apply Hb. lia.
    - apply Z.mod_pow2_bits_high. pose proof (type_widths t Ht). lia. }
  each_type Ht; ranges; lia.
Qed.

Lemma ffs_spec v : 0 < v -> exists k, builtin_ffs v = S k /\ Z.testbit v (Z.of_nat k) = true /\ forall i, 0 <= i < Z.of_nat k -> Z.testbit v i = false.
Proof.
  intros H. destruct v as [|p|p]; try lia. destruct (pos_ffs_spec p) as (k & E & T & F). exists k. split; [exact E|].
  change (Z.pos p) with (Z.of_N (N.pos p)). split.
  - rewrite Z.testbit_of_N' by lia. rewrite <- T. f_equal. lia.
  - intros i Hi. rewrite Z.testbit_of_N' by lia. rewrite <- (F (Z.to_nat i)) by lia. f_equal. lia.
Qed.

Lemma FindFirstBit_rt_spec t v : In t int_types -> in_range t v = true -> is_first_bit (wid t) v (Z.of_nat (FindFirstBit_rt t v)).
Proof.
  intros Ht Hv. pose proof (type_widths t Ht) as TW.
  assert (W : wid t <= builtin_width t) by (each_type Ht; cbn; lia).
  assert (LOW : forall i, 0 <= i < wid t -> Z.testbit (v mod 2 ^ builtin_width t) i = Z.testbit v i)
    by (intros i Hi; apply Z.mod_pow2_bits_low; lia).
  unfold FindFirstBit_rt. destruct (Z.eq_dec v 0) as [->|Hne].
  - left. rewrite Z.mod_0_l by lia. split; [reflexivity|]. intros i _. apply Z.bits_0.
  - assert (P : 0 < v mod 2 ^ builtin_width t).
    { pose proof (Z.mod_pos_bound v (2 ^ builtin_width t)) as B. destruct (Z.eq_dec (v mod 2 ^ builtin_width t) 0) as [E|E]; [|lia].
      exfalso. apply Hne. apply (zero_low t); trivial. intros i Hi. rewrite <- LOW, E by assumption. apply Z.bits_0. }
    destruct (ffs_spec _ P) as (k & -> & T & F). right.
    assert (K : Z.of_nat k < wid t).
    { destruct (Z.lt_ge_cases (Z.of_nat k) (wid t)) as [C|C]; [exact C|]. exfalso. apply Hne. apply (zero_low t); trivial.
      intros i Hi. rewrite <- LOW by assumption. apply F. lia. }
    replace (Z.of_nat (S k) - 1) with (Z.of_nat k) by lia. split; [lia|]. rewrite <- LOW by lia. split; [exact T|].
    intros i Hi. rewrite <- LOW by lia. now apply F.
Qed.

(** [v & -v] isolates the lowest set bit. *)
Lemma isolate v k : 0 <= k -> Z.testbit v k = true -> (forall i, 0 <= i < k -> Z.testbit v i = false) -> Z.land v (- v) = 2 ^ k.
Proof.
  intros Hk T F. assert (M : v mod 2 ^ k = 0).
  { apply Z.bits_inj'. intros i Hi. rewrite Z.bits_0. destruct (Z.lt_ge_cases i k).
    - rewrite Z.mod_pow2_bits_low by assumption. apply F. lia.
    - apply Z.mod_pow2_bits_high. lia. }
  pose proof (Z.pow_pos_nonneg 2 k ltac:(lia) Hk).
  assert (V : v = 2 ^ k * (v / 2 ^ k)) by (pose proof (Z.div_mod v (2 ^ k) ltac:(lia)); lia).
  set (q := v / 2 ^ k) in *. assert (O : Z.odd q = true).
  { rewrite <- Z.bit0_odd. unfold q. rewrite Z.div_pow2_bits by lia. exact T. }
  rewrite V. rewrite <- Z.mul_opp_r, !(Z.mul_comm (2 ^ k)), <- !Z.shiftl_mul_pow2, <- Z.shiftl_land by lia.
  rewrite (Z.shiftl_mul_pow2 _ k) by lia. replace (Z.land q (- q)) with 1; [lia|].
  symmetry. apply Z.odd_spec in O. destruct O as [m O]. rewrite O.
  replace (- (2 * m + 1)) with (2 * (- m - 1) + 1) by lia. replace (- m - 1) with (Z.lnot m) by (unfold Z.lnot; lia).
  apply Z.bits_inj'. intros i Hi. rewrite Z.land_spec. destruct (Z.eq_dec i 0) as [->|Hne]; [now rewrite !Z.testbit_odd_0|].
  replace i with (Z.succ (i - 1)) by lia. rewrite !Z.testbit_odd_succ, Z.lnot_spec by lia. rewrite andb_negb_r.
  symmetry. change 1 with (2 ^ 0). apply Z.pow2_bits_false. lia.
Qed.

Lemma first_bit_unique w v r r' : is_first_bit w v r -> is_first_bit w v r' -> r = r'.
Proof.
  intros [(-> & H1)|(H1 & H2 & H3)] [(-> & H4)|(H4 & H5 & H6)]; trivial.
  - rewrite H1 in H5 by lia. discriminate.
  - rewrite H4 in H2 by lia. discriminate.
  - destruct (Z.lt_trichotomy r r') as [C|[C|C]]; trivial.
    + rewrite H6 in H2 by lia. discriminate.
    + rewrite H3 in H5 by lia. discriminate.
Qed.
Lemma last_bit_unique w v r r' : is_last_bit w v r -> is_last_bit w v r' -> r = r'.
Proof.
  intros [(-> & H1)|(H1 & H2 & H3)] [(-> & H4)|(H4 & H5 & H6)]; trivial.
  - rewrite H1 in H5 by lia. discriminate.
  - rewrite H4 in H2 by lia. discriminate.
  - destruct (Z.lt_trichotomy r r') as [C|[C|C]]; trivial.
    + rewrite H3 in H5 by lia. discriminate.
    + rewrite H6 in H2 by lia. discriminate.
Qed.

(** ** IntegralLog2Pot *)
Definition z_eqb_out (x : outcome Z) (n : Z) : bool := match x with Done m => m =? n | _ => false end.
Lemma z_eqb_out_true x n : z_eqb_out x n = true -> x = Done n.
Proof. destruct x; cbn; [|discriminate]. intros H. apply Z.eqb_eq in H. now subst. Qed.

Lemma IntegralLog2Pot_spec t k : wid t = 8 \/ wid t = 16 \/ wid t = 32 \/ wid t = 64 -> 0 <= k < wid t ->
  IntegralLog2Pot t (2 ^ k) = Done k.
Proof.
  intros Ht Hk. apply z_eqb_out_true. unfold IntegralLog2Pot. destruct (Z.leb_spec (wid t) 32).
  - apply (sweep 5 0 (fun k => z_eqb_out (IntegralLog2Pot_32 (2 ^ k)) k)); [vm_compute; reflexivity|]. change (2 ^ Z.of_nat 5) with 32. lia.
  - apply (sweep 6 0 (fun k => z_eqb_out (IntegralLog2Pot_64 (2 ^ k)) k)); [vm_compute; reflexivity|]. change (2 ^ Z.of_nat 6) with 64. lia.
Qed.

Lemma FindFirstBit_ce_spec t v : In t int_types -> in_range t v = true ->
  exists r, FindFirstBit_ce t v = Done r /\ is_first_bit (wid t) v r.
Proof.
  intros Ht Hv. pose proof (FindFirstBit_rt_spec t v Ht Hv) as S. pose proof (type_widths t Ht) as TW.
  unfold FindFirstBit_ce. destruct S as [(S1 & S2)|(S1 & S2 & S3)].
  - exists 0. assert (v = 0) by (now apply (zero_low t)). subst v.
    split; [|left; split; trivial]. each_type Ht; reflexivity.
  - set (r := Z.of_nat (FindFirstBit_rt t v)) in *. exists r. split; [|right; auto].
    set (u := make_unsigned t). assert (CU : cast u v = v mod 2 ^ wid t) by exact (cast_unsigned_mod u v eq_refl).
    assert (B : forall i, 0 <= i < wid t -> Z.testbit (cast u v) i = Z.testbit v i)
      by (intros i Hi; rewrite CU; apply Z.mod_pow2_bits_low; lia).
    assert (RG : 0 <= cast u v < 2 ^ wid t) by (rewrite CU; apply Z.mod_pos_bound; lia).
    set (c := cast u v) in *. assert (NZ : c =? 0 = false).
    { apply Z.eqb_neq. intros E. rewrite <- B, E, Z.bits_0 in S2 by lia. discriminate. }
    rewrite NZ.
    assert (I : Z.land c (- c) = 2 ^ (r - 1)).
    { apply isolate; [lia | now rewrite B by lia |]. intros i Hi. rewrite B by lia. now apply S3. }
    assert (PW : wid (promote u) = 32 \/ wid (promote u) = 64) by (each_type Ht; cbn; auto).
    assert (PW2 : wid t <= wid (promote u)) by (each_type Ht; cbn; lia).
    assert (N : exists neg, arith u (- c) = Done neg /\ Z.land c neg = 2 ^ (r - 1)).
    { destruct (Z.lt_ge_cases (wid t) 32) as [C|C].
      - exists (- c). split; [|exact I]. apply arith_id; [each_type Ht; cbn; tauto|]. each_type Ht; unfold u in *; ranges; lia.
      - exists ((- c) mod 2 ^ wid t). split; [each_type Ht; try (cbn in C; lia); reflexivity|].
        apply Z.bits_inj'. intros i Hi. destruct (Z.lt_ge_cases i (wid t)) as [D|D].
        + rewrite Z.land_spec, Z.mod_pow2_bits_low by lia. rewrite <- Z.land_spec. now rewrite I.
        + rewrite Z.land_spec, (pow2_high c (wid t)) by assumption. cbn [andb]. symmetry. apply Z.pow2_bits_false. lia. }
    destruct N as (neg & -> & L). cbn [bind]. rewrite L. rewrite IntegralLog2Pot_spec by lia. cbn [bind]. f_equal. lia.
Qed.

Lemma log2_last_bit w v : 0 < w -> 0 <= v < 2 ^ w -> is_last_bit w v (if v =? 0 then 0 else Z.log2 v + 1).
Proof.
  intros Hw Hv. destruct (Z.eqb_spec v 0) as [->|Hne].
  - left. split; trivial. intros. apply Z.bits_0.
  - right. assert (0 <= Z.log2 v < w) by (split; [apply Z.log2_nonneg | apply Z.log2_lt_pow2; lia]).
    split; [lia|]. replace (Z.log2 v + 1 - 1) with (Z.log2 v) by lia. split; [apply Z.bit_log2; lia|].
    intros i Hi. apply Z.bits_above_log2; lia.
Qed.

Lemma FindLastBit_rt_spec t v : In t int_types -> 0 <= v <= tmax t ->
  exists r, FindLastBit_rt t v = Done r /\ is_last_bit (wid t) v r.
Proof.
  intros Ht Hv. eexists. split; [|apply log2_last_bit; each_type Ht; ranges; lia].
  unfold FindLastBit_rt. destruct (Z.eqb_spec v 0); [reflexivity|].
  rewrite Z.mod_small by (each_type Ht; ranges; lia). unfold builtin_clz. rewrite (proj2 (Z.eqb_neq v 0)) by assumption. cbn [bind].
  f_equal. lia.
Qed.

(** Negative values: the width of the builtin, right for int and wider only. *)
Lemma FindLastBit_rt_negative t v : In t signed_types -> tmin t <= v < 0 -> FindLastBit_rt t v = Done (builtin_width t).
Proof.
  intros Ht Hv. unfold FindLastBit_rt. replace (v =? 0) with false by lia.
  assert (E : v mod 2 ^ builtin_width t = v + 2 ^ builtin_width t).
  { rewrite <- (Z.mod_add v 1) by (each_type Ht; cbn; lia). rewrite Z.mod_small; [lia|]. each_type Ht; ranges; lia. }
  rewrite E. unfold builtin_clz.
  assert (L : Z.log2 (v + 2 ^ builtin_width t) = builtin_width t - 1) by (apply Z.log2_unique; each_type Ht; ranges; lia).
  replace (v + 2 ^ builtin_width t =? 0) with false by (each_type Ht; ranges; lia).
  rewrite L. cbn [bind]. f_equal. lia.
Qed.

Definition flb_inv (k v0 : Z) (st : Z * Z) : Prop :=
  let '(v, pos) := st in 0 <= v < 2 ^ k /\ (v0 = 0 -> v = 0 /\ pos = 0) /\ (0 < v0 -> 0 < v /\ Z.log2 v + pos = Z.log2 v0).
Lemma FindLastBit_step_inv k v0 st : 0 < k -> flb_inv (2 * k) v0 st -> flb_inv k v0 (FindLastBit_step k st).
Proof.
  intros Hk. destruct st as [v pos]. unfold flb_inv, FindLastBit_step. intros (H1 & H2 & H3).
  assert (P : 2 ^ (2 * k) = 2 ^ k * 2 ^ k) by (rewrite <- Z.pow_add_r by lia; f_equal; lia).
  pose proof (Z.pow_pos_nonneg 2 k ltac:(lia) ltac:(lia)).
  destruct (Z.leb_spec (2 ^ k) v) as [C|C].
  - rewrite Z.shiftr_div_pow2 by lia. assert (Q : 0 < v / 2 ^ k) by (apply Z.div_str_pos; lia).
    split; [split; [lia|]; apply Z.div_lt_upper_bound; lia|]. split; [intros E; specialize (H2 E); lia|].
    intros E. specialize (H3 E). split; [lia|]. rewrite <- Z.shiftr_div_pow2, Z.log2_shiftr by lia.
    assert (k <= Z.log2 v) by (apply Z.log2_le_pow2; lia). lia.
  - split; [lia|]. auto.
Qed.
Lemma flb_weaken k k' v0 st : 0 <= k <= k' -> flb_inv k v0 st -> flb_inv k' v0 st.
Proof.
  intros Hk. destruct st as [v pos]. unfold flb_inv. intros (H1 & H2). split; [|exact H2].
  pose proof (Z.pow_le_mono_r 2 k k' ltac:(lia) ltac:(lia)). lia.
Qed.

Lemma FindLastBit_ce_spec t v : In t int_types -> in_range t v = true -> is_last_bit (wid t) v (FindLastBit_ce t v).
Proof.
  intros Ht Hv. unfold FindLastBit_ce. set (u := make_unsigned t).
  assert (CU : cast u v = v mod 2 ^ wid t) by exact (cast_unsigned_mod u v eq_refl).
  assert (RG : 0 <= cast u v < 2 ^ wid t) by (rewrite CU; pose proof (type_widths t Ht); apply Z.mod_pos_bound; lia).
  assert (B : forall i, 0 <= i < wid t -> Z.testbit (cast u v) i = Z.testbit v i)
    by (intros i Hi; rewrite CU; apply Z.mod_pow2_bits_low; lia).
  set (c := cast u v) in *. cbv zeta.
  assert (I0 : flb_inv (wid t) c (c, 0)) by (unfold flb_inv; repeat split; lia).
  assert (I1 : flb_inv 32 c (if 32 <? wid t then FindLastBit_step 32 (c, 0) else (c, 0))).
  { destruct (Z.ltb_spec 32 (wid t)).
    - apply FindLastBit_step_inv; [lia|]. replace (2 * 32) with (wid t) by (pose proof (type_widths t Ht); lia). exact I0.
    - apply flb_weaken with (wid t); [|exact I0]. pose proof (type_widths t Ht). lia. }
  assert (I2 : flb_inv 1 c (FindLastBit_step 1 (FindLastBit_step 2 (FindLastBit_step 4
                     (FindLastBit_step 8 (FindLastBit_step 16 (if 32 <? wid t then FindLastBit_step 32 (c, 0) else (c, 0)))))))).
  { do 5 (apply FindLastBit_step_inv; [lia|]; cbn [Z.mul Pos.mul]). exact I1. }
  destruct (FindLastBit_step 1 _) as [x pos]. unfold flb_inv in I2. destruct I2 as (X & Z1 & Z2).
  assert (R : is_last_bit (wid t) c (if 1 <=? x then pos + 1 else pos)).
  { replace (if 1 <=? x then pos + 1 else pos) with (if c =? 0 then 0 else Z.log2 c + 1).
    - apply log2_last_bit; [pose proof (type_widths t Ht); lia | exact RG].
    - destruct (Z.eqb_spec c 0) as [E|E].
      + destruct (Z1 E) as [-> ->]. reflexivity.
      + destruct Z2 as [Y1 Y2]; [lia|]. assert (x = 1) by lia. subst x. change (Z.log2 1) with 0 in Y2. change (1 <=? 1) with true. cbv iota. lia. }
  destruct R as [(R1 & R2)|(R1 & R2 & R3)]; [left | right].
  - split; [exact R1|]. intros i Hi. rewrite <- B by lia. now apply R2.
  - split; [exact R1|]. rewrite <- B by lia. split; [exact R2|]. intros i Hi. rewrite <- B by lia. now apply R3.
Qed.

(** ** Conversions and the bits of a value *)
Lemma cast_low_any t z i : 0 <= i < wid t -> Z.testbit (cast t z) i = Z.testbit z i.
Proof.
  intros Hi. rewrite <- (Z.mod_pow2_bits_low z (wid t) i) by lia. unfold cast.
  destruct (sgn t); [|reflexivity]. destruct (z mod 2 ^ wid t <? 2 ^ (wid t - 1)); [reflexivity|].
  rewrite <- (Z.mod_pow2_bits_low (z mod 2 ^ wid t - 2 ^ wid t) (wid t) i) by lia.
  pose proof (Z.pow_pos_nonneg 2 (wid t) ltac:(lia) ltac:(lia)).
  replace (z mod 2 ^ wid t - 2 ^ wid t) with (z mod 2 ^ wid t + (-1) * 2 ^ wid t) by lia. rewrite Z.mod_add, Z.mod_mod by lia. reflexivity.
Qed.
Lemma cast_any_range t z : In t int_types -> in_range t (cast t z) = true.
Proof.
  intros Ht. unfold cast. pose proof (Z.mod_pos_bound z (2 ^ wid t)) as B.
  each_type Ht; ranges; specialize (B ltac:(lia)); generalize dependent (z mod 2 ^ 8 + 0); intros; try lia;
  match goal with |- context [if ?c then _ else _] => destruct c eqn:Q end; lia.
Qed.
(** Values in range with the same low bits are equal. *)
Lemma in_range_ext t x y : In t int_types -> in_range t x = true -> in_range t y = true ->
  (forall i, 0 <= i < wid t -> Z.testbit x i = Z.testbit y i) -> x = y.
Proof.
  intros Ht Hx Hy H. assert (M : x mod 2 ^ wid t = y mod 2 ^ wid t).
  { apply Z.bits_inj'. intros i Hi. destruct (Z.lt_ge_cases i (wid t)).
    - rewrite !Z.mod_pow2_bits_low by assumption. apply H. lia.
    - pose proof (type_widths t Ht). rewrite !Z.mod_pow2_bits_high by lia. reflexivity. }
  each_type Ht; ranges; lia.
Qed.
