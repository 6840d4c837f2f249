(** Counting, searching, whole-set queries, comparison. *)
From Verif Require Import Base CInt MathModel BitsetModel BitsetSpec BitsetBits BitsetProofs.
Open Scope nat_scope.

(** ** popcount and ffs on naturals *)
Lemma nbits_S n v : nbits (S n) v = N.testbit v 0 :: nbits n (N.div2 v).
Proof.
  unfold nbits. cbn [seq map]. f_equal. rewrite <- seq_shift, map_map. apply map_ext. intros i.
  rewrite Nat2N.inj_succ, N.testbit_succ_r_div2 by lia. reflexivity.
Qed.

Lemma nbits_length n v : length (nbits n v) = n.
Proof. unfold nbits. now rewrite map_length, seq_length. Qed.

Lemma sbit_nbits n v i : sbit (nbits n v) i = if i <? n then N.testbit v (N.of_nat i) else false.
Proof. unfold sbit, nbits. apply (nth_map_seq (fun i => N.testbit v (N.of_nat i))). Qed.

Lemma nbits_0 n : nbits n 0 = repeat false n.
Proof.
  induction n as [|n IH]; [reflexivity|]. rewrite nbits_S. cbn [repeat].
  change (N.div2 0) with 0%N. now rewrite IH.
Qed.

Lemma count_repeat_false n : s_count (repeat false n) = 0.
Proof. unfold s_count. induction n; simpl; auto. Qed.

Lemma s_count_app a b : s_count (a ++ b) = s_count a + s_count b.
Proof. apply count_occ_app. Qed.

Lemma popcount_spec n : forall x, (x < 2 ^ N.of_nat n)%N -> builtin_popcount (Z.of_N x) = s_count (nbits n x).
Proof.
  induction n as [|n IH]; intros x Hx.
  - assert (x = 0%N) by (change (2 ^ N.of_nat 0)%N with 1%N in Hx; lia). subst. reflexivity.
  - rewrite nbits_S. destruct x as [|p].
    + change (N.div2 0) with 0%N. rewrite nbits_0. change (N.testbit 0 0) with false.
      change (false :: repeat false n) with (repeat false (S n)). now rewrite count_repeat_false.
    + rewrite Nat2N.inj_succ, N.pow_succ_r' in Hx.
      assert (HD : (N.div2 (N.pos p) < 2 ^ N.of_nat n)%N) by (rewrite N.div2_div; apply N.div_lt_upper_bound; lia).
      specialize (IH _ HD). destruct p as [p|p|].
      * change (N.div2 (N.pos p~1)) with (N.pos p) in *. change (N.testbit (N.pos p~1) 0) with true.
        change (builtin_popcount (Z.of_N (N.pos p~1))) with (S (builtin_popcount (Z.of_N (N.pos p)))).
        rewrite IH. reflexivity.
      * change (N.div2 (N.pos p~0)) with (N.pos p) in *. change (N.testbit (N.pos p~0) 0) with false.
        change (builtin_popcount (Z.of_N (N.pos p~0))) with (builtin_popcount (Z.of_N (N.pos p))).
        rewrite IH. reflexivity.
      * change (N.div2 1) with 0%N in *. change (N.testbit 1 0) with true. rewrite nbits_0.
        change (builtin_popcount (Z.of_N 1)) with 1. simpl. unfold s_count. simpl. f_equal.
        symmetry. apply (count_repeat_false n).
Qed.

Lemma pos_ffs_spec p : exists k, pos_ffs p = S k /\ N.testbit (N.pos p) (N.of_nat k) = true /\
  forall j, j < k -> N.testbit (N.pos p) (N.of_nat j) = false.
Proof.
  induction p as [p IH|p IH|].
  - exists 0. split; [reflexivity|]. split; [reflexivity|]. lia.
  - destruct IH as (k & E & T & L). exists (S k). cbn [pos_ffs]. rewrite E. split; [reflexivity|].
    change (N.pos p~0) with (2 * N.pos p)%N. split.
    + rewrite Nat2N.inj_succ. rewrite N.testbit_even_succ by lia. exact T.
    + intros [|j] Hj; [apply N.testbit_even_0|]. rewrite Nat2N.inj_succ, N.testbit_even_succ by lia. apply L. lia.
  - exists 0. split; [reflexivity|]. split; [reflexivity|]. lia.
Qed.

Section F.
Variable w : nat.
Context {Hw : width w}.
Let Wpos : 0 < w := width_pos w Hw.

Lemma builtin_width_le : (Z.of_nat w <= builtin_width (block_ty w))%Z.
Proof. unfold builtin_width, block_ty. cbn [wid]. destruct Hw as [->|[->|[->| ->]]]; cbn; lia. Qed.

Lemma block_cast x : (x < 2 ^ N.of_nat w)%N ->
  ((Z.of_N x) mod 2 ^ builtin_width (block_ty w) = Z.of_N x)%Z.
Proof.
  intros H. apply Z.mod_small. split; [lia|].
  apply Z.lt_le_trans with (2 ^ Z.of_nat w)%Z.
  - replace (2 ^ Z.of_nat w)%Z with (Z.of_N (2 ^ N.of_nat w)); [lia|].
    rewrite N2Z.inj_pow. now rewrite nat_N_Z.
  - apply Z.pow_le_mono_r; [lia | apply builtin_width_le].
Qed.

Lemma block_popcount_spec x : (x < 2 ^ N.of_nat w)%N -> block_popcount w x = s_count (nbits w x).
Proof.
  intros H. unfold block_popcount, CountBits_rt, cast. cbn [sgn wid].
  rewrite block_cast by assumption. now apply popcount_spec.
Qed.

Lemma block_ffs_spec x : (x < 2 ^ N.of_nat w)%N -> x <> 0%N ->
  exists k, block_ffs w x = S k /\ k < w /\ N.testbit x (N.of_nat k) = true /\
    forall j, j < k -> N.testbit x (N.of_nat j) = false.
Proof.
  intros H H0. unfold block_ffs, FindFirstBit_rt. rewrite block_cast by assumption.
  destruct x as [|p]; [congruence|]. destruct (pos_ffs_spec p) as (k & E & T & L).
  exists k. split; [exact E|]. split; [|auto].
  destruct (Nat.lt_ge_cases k w) as [|C]; [assumption|].
  rewrite (block_high w) in T; [discriminate | assumption | lia].
Qed.

(** ** Count *)
Lemma flat_bits_length l : length (flat_map (nbits w) l) = w * length l.
Proof.
  induction l as [|x l IH]; [simpl; lia|]. cbn [flat_map length].
  rewrite app_length, nbits_length, IH, Nat.mul_succ_r. lia.
Qed.

Lemma sbit_flat l : forall k, sbit (flat_map (nbits w) l) k = lbit w l k.
Proof.
  induction l as [|x l IH]; intros k.
  - rewrite (lbit_high w) by (simpl; lia). unfold sbit. now destruct k.
  - cbn [flat_map]. unfold sbit at 1. rewrite nth_app_full, nbits_length.
    destruct (Nat.ltb_spec k w) as [Hk|Hk].
    + fold (sbit (nbits w x) k). rewrite sbit_nbits. destruct (Nat.ltb_spec k w); [|lia].
      unfold lbit. rewrite Nat.div_small, Nat.mod_small by assumption. reflexivity.
    + fold (sbit (flat_map (nbits w) l) (k - w)). rewrite IH. unfold lbit.
      replace k with ((k - w) + 1 * w) at 3 4 by lia.
      rewrite Nat.div_add, Nat.mod_add by lia. rewrite Nat.add_1_r. reflexivity.
Qed.

Lemma repr_flat b l : repr w b l -> flat_map (nbits w) (blocks b) = l ++ repeat false (w * nblocks w (length l) - length l).
Proof.
  intros (HC & HL & HS & HB). apply (list_ext false).
  - rewrite flat_bits_length, app_length, repeat_length, HL. destruct (nblocks_spec w (length l)). lia.
  - intros i _. change (sbit (flat_map (nbits w) (blocks b)) i = nth i (l ++ repeat false (w * nblocks w (length l) - length l)) false).
    rewrite sbit_flat, HB. rewrite nth_app_full, nth_repeat_full. unfold sbit.
    destruct (Nat.ltb_spec i (length l)); [reflexivity|]. rewrite nth_overflow by assumption. now destruct (_ <? _).
Qed.

Lemma fold_count l : small w l -> forall c, fold_left (fun c x => c + block_popcount w x) l c = c + s_count (flat_map (nbits w) l).
Proof.
  induction 1 as [|x l Hx Hl IH]; intros c; cbn [fold_left flat_map]; [cbn; lia|].
  rewrite IH, s_count_app, block_popcount_spec by assumption. lia.
Qed.

Lemma Count_repr b l : repr w b l -> Count w b = s_count l.
Proof.
  intros R. pose proof R as (HC & HL & HS & HB). unfold Count. rewrite fold_count by assumption.
  rewrite (repr_flat b l R), s_count_app, count_repeat_false. lia.
Qed.

(** ** Searching *)
Lemma s_find_some l i p : i <= p -> sbit l p = true -> (forall j, i <= j < p -> sbit l j = false) -> s_find l i = Some p.
Proof.
  intros Hi Hp Hj. unfold s_find.
  assert (Hl : p < length l) by (apply Nat.nle_gt; intros C; rewrite sbit_high in Hp by assumption; discriminate).
  remember (length l - i) as m eqn:Em. assert (Hm : p < i + m) by lia. clear Em.
  revert i Hi Hj Hm. induction m as [|m IH]; intros i Hi Hj Hm; [lia|].
  cbn [seq find]. destruct (Nat.eq_dec i p) as [->|Hne].
  - now rewrite Hp.
  - rewrite (Hj i) by lia. apply IH; [lia | | lia]. intros j Hj'. apply Hj. lia.
Qed.

Lemma s_find_none l i : (forall j, i <= j -> sbit l j = false) -> s_find l i = None.
Proof.
  intros H. unfold s_find. remember (length l - i) as m eqn:Em. clear Em.
  revert i H. induction m as [|m IH]; intros i H; [reflexivity|].
  cbn [seq find]. rewrite (H i) by lia. apply IH. intros j Hj. apply H. lia.
Qed.

(** [s_find] is the least true position at or after [i]. *)
Lemma s_find_spec l i : match s_find l i with
  | Some p => i <= p < length l /\ sbit l p = true /\ (forall j, i <= j < p -> sbit l j = false)
  | None => forall j, i <= j -> sbit l j = false
  end.
Proof.
  unfold s_find. remember (length l - i) as m eqn:Em.
  revert i Em. induction m as [|m IH]; intros i Em; cbn [seq find].
  - intros j Hj. apply sbit_high. lia.
  - destruct (sbit l i) eqn:Ei.
    + split; [lia|]. split; [exact Ei|]. lia.
    + assert (Em' : m = length l - S i) by lia. specialize (IH (S i) Em').
      destruct (find (sbit l) (seq (S i) m)) as [p|].
      * destruct IH as (A & B & C). split; [lia|]. split; [exact B|].
        intros j Hj. destruct (Nat.eq_dec j i) as [->|]; [exact Ei | apply C; lia].
      * intros j Hj. destruct (Nat.eq_dec j i) as [->|]; [exact Ei | apply IH; lia].
Qed.

Lemma first_nonzero_spec l : forall i, match first_nonzero l i with
  | Some (c, x) => i <= c /\ c - i < length l /\ x = nth (c - i) l 0%N /\ x <> 0%N /\ (forall c', i <= c' < c -> nth (c' - i) l 0%N = 0%N)
  | None => Forall (fun x => x = 0%N) l
  end.
Proof.
  induction l as [|x l IH]; intros i; cbn [first_nonzero]; [constructor|].
  destruct (N.eqb_spec x 0) as [->|Hx].
  - specialize (IH (S i)). destruct (first_nonzero l (S i)) as [[c y]|].
    + destruct IH as (A & B & C & D & E). split; [lia|]. split; [simpl; lia|].
      replace (c - i) with (S (c - S i)) by lia. split; [exact C|]. split; [exact D|].
      intros c' Hc'. destruct (Nat.eq_dec c' i) as [->|]; [now rewrite Nat.sub_diag|].
      replace (c' - i) with (S (c' - S i)) by lia. apply E. lia.
    + constructor; auto.
  - split; [lia|]. rewrite Nat.sub_diag. simpl. repeat split; auto; lia.
Qed.

Lemma lbit_zero_block l k : nth (k / w) l 0%N = 0%N -> lbit w l k = false.
Proof. intros H. unfold lbit. rewrite H. apply N.bits_0. Qed.

Lemma div_block k c : w * c <= k < w * c + w -> k / w = c /\ k mod w = k - w * c.
Proof.
  intros H. split.
  - symmetry. apply Nat.div_unique with (k - w * c); lia.
  - symmetry. apply Nat.mod_unique with c; lia.
Qed.

Lemma FindFirstFrom_repr b l bi : repr w b l -> FindFirstFrom w b bi = s_find l (w * bi).
Proof.
  intros R. pose proof R as (HC & HL & HS & HB). unfold FindFirstFrom.
  destruct (Nat.leb_spec (length (blocks b)) bi) as [Hbi|Hbi].
  - symmetry. apply s_find_none. intros j Hj. rewrite <- HB. apply (lbit_high w).
    apply Nat.le_trans with (w * bi); [now apply (wmul_mono w) | exact Hj].
  - pose proof (first_nonzero_spec (skipn bi (blocks b)) bi) as FN.
    destruct (first_nonzero (skipn bi (blocks b)) bi) as [[c x]|].
    + destruct FN as (A & B & C & D & E). rewrite nth_skipn in C. replace (bi + (c - bi)) with c in C by lia.
      assert (Hx : (x < 2 ^ N.of_nat w)%N) by (rewrite C; now apply (small_nth w)).
      destruct (block_ffs_spec x Hx D) as (k & Ek & Hk & Tk & Lk). rewrite Ek.
      replace (S k + c * w - 1) with (w * c + k) by lia. symmetry.
      assert (HP : forall j, j < w -> sbit l (w * c + j) = N.testbit x (N.of_nat j)).
      { intros j Hj. rewrite <- HB, (lbit_at w), C by assumption. reflexivity. }
      apply s_find_some.
      * apply Nat.le_trans with (w * c); [now apply (wmul_mono w) | lia].
      * rewrite HP; assumption.
      * intros j Hj. rewrite <- HB.
        destruct (Nat.lt_ge_cases j (w * c)) as [L|L].
        -- apply lbit_zero_block. destruct (divmod_w w j) as [J1 J2].
           assert (bi <= j / w). { apply Nat.div_le_lower_bound; lia. }
           assert (j / w < c). { apply Nat.div_lt_upper_bound; lia. }
           specialize (E (j / w)). rewrite nth_skipn in E. replace (bi + (j / w - bi)) with (j / w) in E by lia.
           apply E. lia.
        -- replace j with (w * c + (j - w * c)) by lia. rewrite HB, HP by lia. apply Lk. lia.
    + symmetry. apply s_find_none. intros j Hj. rewrite <- HB. apply lbit_zero_block.
      assert (bi <= j / w). { apply Nat.div_le_lower_bound; lia. }
      assert (F : nth (j / w - bi) (skipn bi (blocks b)) 0%N = 0%N).
      { apply (Forall_nth_default (fun x => x = 0%N)); [exact FN | reflexivity]. }
      rewrite nth_skipn in F. now replace (bi + (j / w - bi)) with (j / w) in F by lia.
Qed.

Lemma FindFirst_repr b l : repr w b l -> FindFirst w b = s_find l 0.
Proof. intros R. unfold FindFirst. rewrite (FindFirstFrom_repr b l 0 R). now rewrite Nat.mul_0_r. Qed.

Lemma FindNext_repr b l i : repr w b l -> FindNext w b i = if i <? length l then Done (s_find l (i + 1)) else Fault FAssert.
Proof.
  intros R. pose proof R as (HC & HL & HS & HB). unfold FindNext. rewrite HC.
  destruct (Nat.ltb_spec i (length l)) as [Hi|Hi]; [|reflexivity]. cbn [assert bind].
  destruct (Nat.leb_spec (length l) (i + 1)) as [Hn|Hn].
  - f_equal. symmetry. apply s_find_none. intros j Hj. apply sbit_high. lia.
  - pose proof (block_of w b l (i + 1) R Hn) as HI.
    rewrite (vget_done _ _ 0%N) by assumption. cbn [bind]. rewrite (GetBitIndex_mod w).
    unfold GetBlockIndex in *. destruct (divmod_w w (i + 1)) as [I1 I2]. rewrite (shr_done w) by assumption. cbn [bind].
    set (c := (i + 1) / w) in *. set (r := (i + 1) mod w) in *.
    set (x := nth c (blocks b) 0%N) in *.
    assert (Hx : (x < 2 ^ N.of_nat w)%N) by (apply (small_nth w); assumption).
    assert (HP : forall j, j < w -> sbit l (w * c + j) = N.testbit x (N.of_nat j)).
    { intros j Hj. rewrite <- HB, (lbit_at w) by assumption. reflexivity. }
    destruct (N.eqb_spec (N.shiftr x (N.of_nat r)) 0%N) as [Z|Z]; cbn [negb].
    + f_equal. rewrite (FindFirstFrom_repr b l (c + 1) R).
      assert (HZ : forall j, i + 1 <= j < w * (c + 1) -> sbit l j = false).
      { intros j Hj. rewrite Nat.mul_add_distr_l, Nat.mul_1_r in Hj.
        replace j with (w * c + (j - w * c)) by lia. rewrite HP by lia.
        assert (T : N.testbit (N.shiftr x (N.of_nat r)) (N.of_nat (j - w * c - r)) = false) by (rewrite Z; apply N.bits_0).
        rewrite N.shiftr_spec' in T. rewrite <- T. f_equal. lia. }
      pose proof (s_find_spec l (w * (c + 1))) as SF. destruct (s_find l (w * (c + 1))) as [p|].
      * destruct SF as (A & B & C). symmetry. apply s_find_some; [|exact B|].
        -- rewrite Nat.mul_add_distr_l, Nat.mul_1_r in A. lia.
        -- intros j Hj. destruct (Nat.lt_ge_cases j (w * (c + 1))); [apply HZ; lia | apply C; lia].
      * symmetry. apply s_find_none. intros j Hj.
        destruct (Nat.lt_ge_cases j (w * (c + 1))); [apply HZ; lia | apply SF; lia].
    + f_equal. destruct (block_ffs_spec (N.shiftr x (N.of_nat r)) (shiftr_lt _ _ _ Hx) Z) as (k & Ek & Hk & Tk & Lk).
      rewrite Ek. replace (S k + (i + 1) - 1) with (i + 1 + k) by lia. symmetry.
      rewrite N.shiftr_spec' in Tk.
      assert (Hrk : r + k < w).
      { apply Nat.nle_gt. intros C. rewrite (block_high w) in Tk; [discriminate | assumption | lia]. }
      apply s_find_some; [lia | |].
      * replace (i + 1 + k) with (w * c + (r + k)) by lia. rewrite HP by assumption. rewrite <- Tk. f_equal. lia.
      * intros j Hj. replace j with (w * c + (r + (j - i - 1))) by lia. rewrite HP by lia.
        rewrite <- (Lk (j - i - 1)) by lia. rewrite N.shiftr_spec'. f_equal. lia.
Qed.

(** ** Iteration over the set bits *)
Lemma filter_none_range l i m : (forall j, i <= j < i + m -> sbit l j = false) -> filter (sbit l) (seq i m) = [].
Proof.
  revert i. induction m as [|m IH]; intros i H; [reflexivity|]. cbn [seq filter].
  rewrite (H i) by lia. apply IH. intros j Hj. apply H. lia.
Qed.

Lemma positions_find l i : filter (sbit l) (seq i (length l - i)) =
  match s_find l i with Some p => p :: filter (sbit l) (seq (p + 1) (length l - (p + 1))) | None => [] end.
Proof.
  pose proof (s_find_spec l i) as SF. destruct (s_find l i) as [p|].
  - destruct SF as (A & B & C). replace (length l - i) with ((p - i) + S (length l - (p + 1))) by lia.
    rewrite seq_app, filter_app. rewrite filter_none_range; [|intros j Hj; apply C; lia].
    cbn [app seq filter]. replace (i + (p - i)) with p by lia. rewrite B. now rewrite Nat.add_1_r.
  - apply filter_none_range. intros j Hj. apply SF. lia.
Qed.

Lemma iter_loop_repr b l : repr w b l -> forall fuel i, length l - i <= fuel ->
  iter_loop w fuel b (s_find l i) = Done (filter (sbit l) (seq i (length l - i))).
Proof.
  intros R. induction fuel as [|f IH]; intros i Hf; rewrite positions_find;
    pose proof (s_find_spec l i) as SF; destruct (s_find l i) as [p|] eqn:E; cbn [iter_loop]; try reflexivity.
  - lia.
  - unfold iter_incr. rewrite (FindNext_repr b l p R). destruct (Nat.ltb_spec p (length l)); [|lia].
    cbn [bind]. rewrite IH by lia. reflexivity.
Qed.

Lemma IterBits_repr b l : repr w b l -> IterBits w b = Done (s_positions l).
Proof.
  intros R. unfold IterBits, iter_begin. rewrite (FindFirst_repr b l R).
  pose proof R as (HC & _). rewrite HC.
  rewrite (iter_loop_repr b l R) by lia. unfold s_positions. now rewrite Nat.sub_0_r.
Qed.

(** ** Queries *)
Lemma bits_zero_nth l c : small w l -> (nth c l 0%N = 0%N <-> forall j, j < w -> lbit w l (w * c + j) = false).
Proof.
  intros HS. split.
  - intros H j Hj. rewrite (lbit_at w) by assumption. rewrite H. apply N.bits_0.
  - intros H. apply testbit_ext_lt with (N.of_nat w); [now apply (small_nth w) | apply (zero_lt w) |].
    intros i Hi. rewrite N.bits_0. replace i with (N.of_nat (N.to_nat i)) by lia.
    rewrite <- (lbit_at w) by lia. apply H. lia.
Qed.

Lemma TestAny_repr b l : repr w b l -> TestAny b = existsb (fun x => x) l.
Proof.
  intros (HC & HL & HS & HB). unfold TestAny. apply Bool.eq_iff_eq_true. rewrite !existsb_exists. split.
  - intros (x & Hin & Hx). destruct (In_nth _ _ 0%N Hin) as (c & Hc & Ec).
    destruct (N.eqb_spec x 0) as [|Hx0]; [discriminate|].
    assert (exists j, j < w /\ lbit w (blocks b) (w * c + j) = true) as (j & Hj & Tj).
    { destruct (block_ffs_spec x) as (k & _ & Hk & Tk & _); [rewrite <- Ec; now apply (small_nth w) | assumption |].
      exists k. split; [assumption|]. rewrite (lbit_at w), Ec by assumption. exact Tk. }
    exists true. split; [|reflexivity]. rewrite HB in Tj. unfold sbit in Tj.
    rewrite <- Tj. apply nth_In. apply Nat.nle_gt. intros C. rewrite nth_overflow in Tj by assumption. discriminate.
  - intros (x & Hin & Hx). subst x. destruct (In_nth _ _ false Hin) as (k & Hk & Ek).
    exists (nth (k / w) (blocks b) 0%N). split.
    + apply nth_In. rewrite HL. now apply (div_lt_nblocks w).
    + destruct (N.eqb_spec (nth (k / w) (blocks b) 0%N) 0) as [Z|Z]; [|reflexivity].
      exfalso. assert (lbit w (blocks b) k = false) by now apply lbit_zero_block.
      rewrite HB in H. unfold sbit in H. congruence.
Qed.

Lemma TestNone_repr b l : repr w b l -> TestNone b = forallb negb l.
Proof.
  intros R. unfold TestNone. rewrite (TestAny_repr b l R). clear. induction l as [|[] l IH]; simpl; auto.
Qed.

Lemma testall_loop_done b m ls : (forall i, In i ls -> i < length (blocks b)) ->
  testall_loop w b m ls = Done (forallb (fun i => (nth i (blocks b) 0%N =? (if (i =? length (blocks b) - 1)%nat then m else fullBitMask w))%N) ls).
Proof.
  induction ls as [|i ls IH]; intros H; cbn [testall_loop forallb]; [reflexivity|].
  rewrite (vget_done _ _ 0%N) by (apply H; simpl; auto). cbn [bind].
  destruct (N.eqb (nth i (blocks b) 0%N) _) eqn:E; cbn [negb andb]; [|reflexivity].
  apply IH. intros j Hj. apply H. simpl; auto.
Qed.

Lemma TestAll_repr b l : repr w b l -> TestAll w b = Done (forallb (fun x => x) l).
Proof.
  intros R. pose proof R as (HC & HL & HS & HB). unfold TestAll.
  destruct (GetLastBlockMask_done w b) as (m & Em & Hm & Bm). rewrite Em. cbn [bind].
  rewrite testall_loop_done.
  2: { intros i Hi. apply in_seq in Hi. lia. }
  f_equal. apply Bool.eq_iff_eq_true. rewrite !forallb_forall. rewrite HC in Bm.
  pose proof (nblocks_cases w (length l)) as NC. rewrite <- HL in NC.
  destruct (divmod_w w (length l)) as [N1 N2].
  assert (MB : forall c j, c < length (blocks b) -> j < w ->
     N.testbit (if c =? length (blocks b) - 1 then m else fullBitMask w) (N.of_nat j) = (w * c + j <? length l)).
  { intros c j Hc Hj. assert (WM : w * c + w <= w * length (blocks b)).
    { replace (w * c + w) with (w * (c + 1)) by lia. apply (wmul_mono w). lia. }
    destruct (Nat.eqb_spec c (length (blocks b) - 1)) as [->|Hne].
    - rewrite Bm by assumption. pose proof (wmul_succ w (length (blocks b))).
      destruct NC as [(Z & C1 & C2)|(Z & C1 & C2)].
      + rewrite Z. simpl. symmetry. apply Nat.ltb_lt. lia.
      + destruct (Nat.eqb_spec (length l mod w) 0); [lia|]. simpl.
        rewrite C1. replace (length l / w + 1 - 1) with (length l / w) by lia.
        destruct (Nat.ltb_spec j (length l mod w)), (Nat.ltb_spec (w * (length l / w) + j) (length l)); try reflexivity; lia.
    - rewrite full_bits. destruct (N.ltb_spec (N.of_nat j) (N.of_nat w)); [|lia]. symmetry. apply Nat.ltb_lt.
      assert (w * (c + 1) + w <= w * length (blocks b)).
      { replace (w * (c + 1) + w) with (w * (c + 2)) by lia. apply (wmul_mono w). lia. }
      lia. }
  split.
  - intros H x Hin. destruct (In_nth _ _ false Hin) as (k & Hk & Ek). rewrite <- Ek.
    change (sbit l k = true). rewrite <- HB. destruct (divmod_w w k) as [K1 K2].
    pose proof (div_lt_nblocks w k (length l) Hk). rewrite <- HL in H0.
    assert (Hc : In (k / w) (range 0 (length (blocks b)))) by (apply in_seq; split; [apply Nat.le_0_l | rewrite Nat.sub_0_r; exact H0]).
    specialize (H _ Hc). apply N.eqb_eq in H. unfold lbit. rewrite H, MB by assumption.
    rewrite <- K1. now apply Nat.ltb_lt.
  - intros H c Hc. apply in_seq in Hc. apply N.eqb_eq.
    apply testbit_ext_lt with (N.of_nat w).
    + now apply (small_nth w).
    + destruct (c =? length (blocks b) - 1); [exact Hm | apply (full_lt w)].
    + intros j Hj. replace j with (N.of_nat (N.to_nat j)) by lia.
      rewrite MB by lia. rewrite <- (lbit_at w) by lia. rewrite HB.
      destruct (Nat.ltb_spec (w * c + N.to_nat j) (length l)) as [L|L]; [|now apply sbit_high].
      apply H. unfold sbit. now apply nth_In.
Qed.

Lemma GetBlock_done b i : i < length (blocks b) -> GetBlock b i = Done (nth i (blocks b) 0%N).
Proof.
  intros H. unfold GetBlock. destruct (Nat.ltb_spec i (length (blocks b))); [|lia]. cbn [assert bind].
  now apply vget_done.
Qed.

Lemma intersects_loop_done a b ls : (forall i, In i ls -> i < length (blocks a) /\ i < length (blocks b)) ->
  intersects_loop a b ls = Done (existsb (fun i => negb (N.land (nth i (blocks a) 0) (nth i (blocks b) 0) =? 0)%N) ls).
Proof.
  induction ls as [|i ls IH]; intros H; cbn [intersects_loop existsb]; [reflexivity|].
  rewrite !GetBlock_done by (apply H; simpl; auto). cbn [bind].
  destruct (N.eqb _ 0); cbn [negb orb]; [|reflexivity].
  apply IH. intros j Hj. apply H. simpl; auto.
Qed.

Lemma Intersects_repr a b la lb : repr w a la -> repr w b lb ->
  Intersects a b = Done (existsb (fun i => sbit la i && sbit lb i) (seq 0 (length la))).
Proof.
  intros (HCa & HLa & HSa & HBa) (HCb & HLb & HSb & HBb). unfold Intersects, GetBlockCount.
  rewrite intersects_loop_done.
  2: { intros i Hi. apply in_seq in Hi. lia. }
  f_equal. apply Bool.eq_iff_eq_true. rewrite !existsb_exists. split.
  - intros (c & Hc & H). apply in_seq in Hc.
    destruct (N.eqb_spec (N.land (nth c (blocks a) 0%N) (nth c (blocks b) 0%N)) 0) as [|Z]; [discriminate|].
    assert (Hx : (N.land (nth c (blocks a) 0%N) (nth c (blocks b) 0%N) < 2 ^ N.of_nat w)%N)
      by (apply land_lt; now apply (small_nth w)).
    destruct (block_ffs_spec _ Hx Z) as (k & _ & Hk & Tk & _).
    rewrite N.land_spec, <- !(lbit_at w) in Tk by assumption. rewrite HBa, HBb in Tk.
    exists (w * c + k). split; [|exact Tk]. apply andb_prop in Tk as [Ta _].
    apply in_seq. split; [lia|]. apply Nat.nle_gt. intros C. rewrite sbit_high in Ta by lia. discriminate.
  - intros (k & Hk & H). apply andb_prop in H as [Ta Tb]. rewrite <- HBa in Ta. rewrite <- HBb in Tb.
    exists (k / w). split.
    + apply in_seq. split; [apply Nat.le_0_l|]. rewrite Nat.sub_0_r.
      assert (k / w < length (blocks a)).
      { apply Nat.nle_gt. intros C. unfold lbit in Ta. rewrite nth_overflow, N.bits_0 in Ta by assumption. discriminate. }
      assert (k / w < length (blocks b)).
      { apply Nat.nle_gt. intros C. unfold lbit in Tb. rewrite nth_overflow, N.bits_0 in Tb by assumption. discriminate. }
      apply Nat.min_glb_lt; assumption.
    + destruct (N.eqb_spec (N.land (nth (k / w) (blocks a) 0%N) (nth (k / w) (blocks b) 0%N)) 0) as [Z|Z]; [|reflexivity].
      exfalso. assert (T : N.testbit (N.land (nth (k / w) (blocks a) 0%N) (nth (k / w) (blocks b) 0%N)) (N.of_nat (k mod w)) = false)
        by (rewrite Z; apply N.bits_0).
      rewrite N.land_spec in T. unfold lbit in Ta, Tb. rewrite Ta, Tb in T. discriminate.
Qed.

(** ** Equality *)
Lemma eq_common_done a b ls : (forall i, In i ls -> i < length (blocks a) /\ i < length (blocks b)) ->
  eq_common a b ls = Done (forallb (fun i => (nth i (blocks a) 0 =? nth i (blocks b) 0)%N) ls).
Proof.
  induction ls as [|i ls IH]; intros H; cbn [eq_common forallb]; [reflexivity|].
  rewrite !GetBlock_done by (apply H; simpl; auto). cbn [bind].
  destruct (N.eqb _ _); cbn [negb andb]; [|reflexivity].
  apply IH. intros j Hj. apply H. simpl; auto.
Qed.

Lemma all_zero_done g ls : (forall i, In i ls -> i < length (blocks g)) ->
  all_zero g ls = Done (forallb (fun i => (nth i (blocks g) 0 =? 0)%N) ls).
Proof.
  induction ls as [|i ls IH]; intros H; cbn [all_zero forallb]; [reflexivity|].
  rewrite !GetBlock_done by (apply H; simpl; auto). cbn [bind].
  destruct (N.eqb _ _); cbn [negb andb]; [|reflexivity].
  apply IH. intros j Hj. apply H. simpl; auto.
Qed.

Lemma blocks_equal_iff a b : small w (blocks a) -> small w (blocks b) ->
  ((forall c, nth c (blocks a) 0%N = nth c (blocks b) 0%N) <-> forall k, lbit w (blocks a) k = lbit w (blocks b) k).
Proof.
  intros Sa Sb. split.
  - intros H k. unfold lbit. now rewrite H.
  - intros H c. apply testbit_ext_lt with (N.of_nat w); try now apply (small_nth w).
    intros j Hj. replace j with (N.of_nat (N.to_nat j)) by lia. rewrite <- !(lbit_at w) by lia. apply H.
Qed.

Lemma equals_repr a b la lb : repr w a la -> repr w b lb ->
  exists r, equals a b = Done r /\ (r = true <-> s_eq la lb).
Proof.
  intros (HCa & HLa & HSa & HBa) (HCb & HLb & HSb & HBb).
  assert (KEY : (forall c, nth c (blocks a) 0%N = nth c (blocks b) 0%N) <-> s_eq la lb).
  { rewrite blocks_equal_iff by assumption. unfold s_eq. split; intros H i; specialize (H i); rewrite HBa, HBb in *; assumption. }
  enough (exists r, equals a b = Done r /\ (r = true <-> forall c, nth c (blocks a) 0%N = nth c (blocks b) 0%N)) as (r & E & H).
  { exists r. split; [exact E|]. now rewrite H. }
  clear KEY. unfold equals, GetBlockCount.
  destruct (Nat.ltb_spec (length (blocks b)) (length (blocks a))) as [L|L].
  - rewrite eq_common_done by (intros i Hi; apply in_seq in Hi; lia). cbn [bind].
    destruct (forallb _ _) eqn:E.
    + rewrite all_zero_done by (intros i Hi; apply in_seq in Hi; lia). eexists. split; [reflexivity|].
      rewrite forallb_forall in *. split.
      * intros H c. destruct (Nat.lt_ge_cases c (length (blocks b))) as [A|A].
        -- apply N.eqb_eq, E. apply in_seq. lia.
        -- rewrite (nth_overflow (blocks b)) by assumption.
           destruct (Nat.lt_ge_cases c (length (blocks a))) as [B|B].
           ++ apply N.eqb_eq, H. apply in_seq. lia.
           ++ now rewrite nth_overflow.
      * intros H c Hc. apply in_seq in Hc. rewrite H, nth_overflow by lia. reflexivity.
    + eexists. split; [reflexivity|]. split; [discriminate|]. intros H. exfalso.
      rewrite <- not_true_iff_false in E. apply E. apply forallb_forall. intros c _. rewrite H. apply N.eqb_refl.
  - rewrite eq_common_done by (intros i Hi; apply in_seq in Hi; lia). cbn [bind].
    destruct (forallb _ _) eqn:E.
    + rewrite all_zero_done by (intros i Hi; apply in_seq in Hi; lia). eexists. split; [reflexivity|].
      rewrite forallb_forall in *. split.
      * intros H c. destruct (Nat.lt_ge_cases c (length (blocks a))) as [A|A].
        -- apply N.eqb_eq, E. apply in_seq. lia.
        -- rewrite (nth_overflow (blocks a)) by assumption.
           destruct (Nat.lt_ge_cases c (length (blocks b))) as [B|B].
           ++ symmetry. apply N.eqb_eq, H. apply in_seq. lia.
           ++ now rewrite nth_overflow.
      * intros H c Hc. apply in_seq in Hc. rewrite <- H, nth_overflow by lia. reflexivity.
    + eexists. split; [reflexivity|]. split; [discriminate|]. intros H. exfalso.
      rewrite <- not_true_iff_false in E. apply E. apply forallb_forall. intros c _. rewrite H. apply N.eqb_refl.
Qed.

End F.
