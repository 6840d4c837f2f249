(** Property C123: Bitset compiled without assertions. *)
From Verif Require Import Base CInt MathModel BitsetModel BitsetSpec BitsetBits BitsetProofs BitsetFind BitsetInt BitsetHistory BitsetReleaseModel Release BitsetRelease PropBitset.
Open Scope nat_scope.

(** Any history whose assertions hold gives the same bitsets without them. *)
Theorem C123_history : forall w ops st, run w st ops <> Fault FAssert -> r_run w st ops = run w st ops.
Proof. intros w ops st. exact (follows_not _ _ (fol_run w ops st)). Qed.
Print Assumptions C123_history.
(** So do the calls that read. *)
Theorem C123_queries : forall w a b,
  (forall i, Test w b i <> Fault FAssert -> rTest w b i = Test w b i) /\
  (forall i, GetBlock b i <> Fault FAssert -> rGetBlock b i = GetBlock b i) /\
  (forall i, FindNext w b i <> Fault FAssert -> rFindNext w b (Some i) = FindNext w b i) /\
  (IterBits w b <> Fault FAssert -> rIterBits w b = IterBits w b) /\
  (forall i, UnboundedTest w b i <> Fault FAssert -> rUnboundedTest w b i = UnboundedTest w b i) /\
  (ToString w b <> Fault FAssert -> rToString w b = ToString w b) /\
  (forall tw, To w tw b <> Fault FAssert -> rTo w tw b = To w tw b) /\
  (Intersects a b <> Fault FAssert -> rIntersects a b = Intersects a b) /\
  (equals a b <> Fault FAssert -> r_equals a b = equals a b) /\
  (less a b <> Fault FAssert -> r_less a b = less a b).
Proof.
  intros w a b. split; [intros i; exact (follows_not _ _ (fol_Test w b i))|]. split; [intros i; exact (follows_not _ _ (fol_GetBlock b i))|].
  split; [intros i; exact (follows_not _ _ (fol_FindNext w b i))|]. split; [exact (follows_not _ _ (fol_IterBits w b))|].
  split; [intros i; exact (follows_not _ _ (fol_UnboundedTest w b i))|]. split; [exact (follows_not _ _ (fol_ToString w b))|].
  split; [intros i; exact (follows_not _ _ (fol_To w i b))|]. split; [exact (follows_not _ _ (fol_Intersects a b))|].
  split; [exact (follows_not _ _ (fol_equals a b)) | exact (follows_not _ _ (fol_less a b))].
Qed.
Print Assumptions C123_queries.
(** Histories that respect the preconditions therefore represent the specified sequences, as C01 says with assertions. *)
Theorem C123_specified : forall w, width w -> forall ops s, wf_run w (fun _ => []) ops -> spec_run w (fun _ => []) ops = Some s ->
  exists st, r_run w (fun _ => empty) ops = Done st /\ forall r, observes w (st r) (s r).
Proof.
  intros w Hw ops s WF SP. pose proof (C01_history w Hw ops WF) as H. rewrite SP in H. destruct H as (st & E & O). exists st. split; [|exact O].
  exact (follows_done _ _ _ (fol_run w ops _) E).
Qed.
Print Assumptions C123_specified.

Section Outside.
Variable w : nat.
Context {Hw : width w}.
Let Wpos : 0 < w := width_pos w Hw.
(** The number of bits the blocks of [b] have room for. *)
Definition room_of (b : bitset) : nat := w * length (blocks b).
(** All bits of the storage, as a bitset of their own. *)
Definition storage (b : bitset) : bitset := mkB (blocks b) (room_of b).

Lemma nblocks_mul n : nblocks w (w * n) = n.
Proof. destruct (nblocks_spec w (w * n)) as (A & B). apply (wmul_le w) in A. assert (w * nblocks w (w * n) < w * (n + 1)) as C by lia. apply (wmul_lt w) in C. lia. Qed.
Lemma room_le b l : repr w b l -> length l <= room_of b.
Proof. intros (_ & HL & _). unfold room_of. rewrite HL. apply nblocks_spec. exact Hw. Qed.
Lemma storage_repr b l : repr w b l -> repr w (storage b) (l ++ repeat false (room_of b - length l)).
Proof.
  intros R. pose proof (room_le _ _ R) as L. destruct R as (HC & HL & HS & HB). unfold storage. split; [|split; [|split]]; cbn [blocks bitCount].
  - rewrite app_length, repeat_length. lia.
  - rewrite app_length, repeat_length. replace (length l + (room_of b - length l)) with (w * length (blocks b)) by (unfold room_of in *; lia). symmetry. apply nblocks_mul.
  - exact HS.
  - intros k. rewrite HB. unfold sbit. destruct (Nat.lt_ge_cases k (length l)) as [K|K]; [now rewrite app_nth1|]. rewrite app_nth2 by exact K. rewrite nth_overflow by exact K. symmetry. apply nth_repeat.
Qed.
Lemma div_room b i : GetBlockIndex w i < length (blocks b) <-> i < room_of b.
Proof.
  unfold GetBlockIndex, room_of. destruct (divmod_w w i) as (E & L). split; intros H.
  - assert (w * (i / w + 1) <= w * length (blocks b)) by (apply (wmul_mono w); lia). lia.
  - apply (wmul_lt w). lia.
Qed.
Lemma rSet_storage b i v : rSet w b i v = if i <? room_of b then s <- Set_ w (storage b) i v ;; Done (mkB (blocks s) (bitCount b)) else Fault FUB.
Proof.
  unfold rSet, Set_. cbn [storage bitCount blocks]. destruct (Nat.ltb_spec i (room_of b)) as [L|L]; cbn [assert bind].
  - destruct (vget (blocks b) (GetBlockIndex w i)); cbn [bind]; [|reflexivity]. destruct (shl w 1 (GetBitIndex w i)); cbn [bind]; [|reflexivity]. destruct (vset _ _ _); reflexivity.
  - unfold vget. replace (nth_error (blocks b) (GetBlockIndex w i)) with (@None N); [reflexivity|]. symmetry. apply nth_error_None. apply Nat.nlt_ge. rewrite div_room. lia.
Qed.
Lemma rTest_storage b i : rTest w b i = if i <? room_of b then Test w (storage b) i else Fault FUB.
Proof.
  unfold rTest, Test. cbn [storage bitCount blocks]. destruct (Nat.ltb_spec i (room_of b)) as [L|L]; cbn [assert bind]; [reflexivity|].
  unfold vget. replace (nth_error (blocks b) (GetBlockIndex w i)) with (@None N); [reflexivity|]. symmetry. apply nth_error_None. apply Nat.nlt_ge. rewrite div_room. lia.
Qed.
Lemma Count_storage b : Count w b = Count w (storage b).
Proof. reflexivity. Qed.
Lemma r_equals_blocks a b n m : r_equals (mkB (blocks a) n) (mkB (blocks b) m) = r_equals a b.
Proof.
  assert (E : forall l, r_eq_common (mkB (blocks a) n) (mkB (blocks b) m) l = r_eq_common a b l) by (induction l as [|i l IH]; cbn [r_eq_common]; [reflexivity|]; rewrite IH; reflexivity).
  assert (Z : forall g k l, r_all_zero (mkB (blocks g) k) l = r_all_zero g l) by (intros g k; induction l as [|i l IH]; cbn [r_all_zero]; [reflexivity|]; rewrite IH; reflexivity).
  unfold r_equals, GetBlockCount. cbn [blocks]. destruct (length (blocks b) <? length (blocks a)); cbv beta iota; cbn [blocks]; rewrite E; destruct (r_eq_common a b _) as [[|]|]; cbn [bind]; rewrite ?Z; reflexivity.
Qed.
Lemma count_upd l i : i < length l -> sbit l i = false -> s_count (upd l i true) = s_count l + 1.
Proof. unfold s_count, sbit. revert i; induction l as [|x l IH]; intros [|i] H E; cbn in *; try lia; [subst; cbn; lia|]. destruct x; cbn; rewrite IH; auto; lia. Qed.
Lemma count_false n l : s_count (l ++ repeat false n) = s_count l.
Proof. rewrite s_count_app, count_repeat_false. lia. Qed.

(** Setting a bit outside writes to a spare bit of the last block if there is one, otherwise past the blocks.  The size and the bits
    stay, but Count is one too many, TestAny and TestNone see the bit, and the bitset no longer equals what it was. *)
Theorem C123_set_refuted : forall b l i, repr w b l -> length l <= i ->
  (room_of b <= i /\ forall v, rSet w b i v = Fault FUB) \/
  (i < room_of b /\ rSet w b i false = Done b /\
   exists b', rSet w b i true = Done b' /\ GetSize b' = length l /\ (forall k, k < length l -> Test w b' k = Done (sbit l k)) /\
     Count w b' = s_count l + 1 /\ TestAny b' = true /\ FindFirst w b' = Some (match s_find l 0 with Some p => p | None => i end) /\
     r_equals b b' = Done false).
Proof.
  intros b l i R L. destruct (Nat.le_gt_cases (room_of b) i) as [G|G]; [left; split; [exact G|]; intros v; rewrite rSet_storage; destruct (Nat.ltb_spec i (room_of b)); [lia | reflexivity]|].
  right. split; [exact G|]. pose proof (storage_repr _ _ R) as S. set (m := l ++ repeat false (room_of b - length l)) in *.
  assert (LM : length m = room_of b) by (unfold m; rewrite app_length, repeat_length; pose proof (room_le _ _ R); lia).
  assert (MI : forall k, sbit m k = sbit l k).
  { intros k. unfold m, sbit. destruct (Nat.lt_ge_cases k (length l)) as [K|K]; [now rewrite app_nth1|]. rewrite app_nth2 by exact K. rewrite (nth_overflow l) by exact K. apply nth_repeat. }
  assert (ZI : sbit m i = false) by (rewrite MI; now apply sbit_high).
  assert (SD : forall v, exists s, rSet w b i v = Done (mkB (blocks s) (bitCount b)) /\ repr w s (upd m i v)).
  { intros v. destruct (Set_done w (storage b) m i v S) as (s & E & RS); [lia|]. exists s. split; [|exact RS]. rewrite rSet_storage. destruct (Nat.ltb_spec i (room_of b)); [|lia]. now rewrite E. }
  destruct (SD false) as (s0 & E0 & R0). destruct (SD true) as (s1 & E1 & R1).
  split.
  - rewrite E0. assert (upd m i false = m) as U by (apply (list_ext false); [apply upd_length|]; intros k _; rewrite nth_upd; destruct (Nat.eqb_spec k i) as [->|]; cbn [andb]; [|reflexivity]; destruct (i <? length m); [symmetry; exact ZI | reflexivity]).
    rewrite U in R0. rewrite (repr_inj w _ _ _ R0 S). cbn [storage blocks]. now destruct b.
  - exists (mkB (blocks s1) (bitCount b)). split; [exact E1|]. split; [destruct R as (HC & _); exact HC|].
    assert (ST : s1 = storage (mkB (blocks s1) (bitCount b))).
    { destruct R1 as (C1 & L1 & _). destruct s1 as (bs, n). unfold storage, room_of. cbn [blocks bitCount] in *. f_equal. rewrite L1, C1, upd_length, LM. unfold room_of. now rewrite nblocks_mul. }
    split; [|split; [|split; [|split]]].
    + intros k K. destruct R as (HC & R). destruct R1 as (C1 & L1 & S1 & B1). unfold Test. cbn [blocks bitCount]. rewrite HC. destruct (Nat.ltb_spec k (length l)); [|lia]. cbn [assert bind].
      rewrite (vget_done _ _ 0%N); [|rewrite L1, upd_length, LM; unfold room_of; rewrite nblocks_mul; apply div_room; lia]. cbn [bind]. rewrite (mask_done w). cbn [bind]. rewrite land_mask_testbit. f_equal.
      specialize (B1 k). unfold lbit in B1. unfold GetBlockIndex. rewrite B1. unfold sbit. rewrite nth_upd. destruct (Nat.eqb_spec k i); [lia|]. cbn [andb]. fold (sbit m k). apply MI.
    + rewrite Count_storage, <- ST, (Count_repr w _ _ R1), count_upd by (trivial; lia). unfold m. now rewrite count_false.
    + change (TestAny (mkB (blocks s1) (bitCount b))) with (TestAny s1). rewrite (TestAny_repr w _ _ R1). apply existsb_exists. exists true. split; [|reflexivity].
      assert (Q : In (nth i (upd m i true) false) (upd m i true)) by (apply nth_In; rewrite upd_length; lia). rewrite nth_upd_same in Q by lia. exact Q.
    + change (FindFirst w (mkB (blocks s1) (bitCount b))) with (FindFirst w s1). rewrite (FindFirst_repr w _ _ R1).
      pose proof (s_find_spec w l 0) as F. destruct (s_find l 0) as [p|].
      * destruct F as (_ & F1 & F2). assert (p < length l) by (destruct (Nat.lt_ge_cases p (length l)) as [?|Q]; [assumption | rewrite sbit_high in F1 by exact Q; discriminate]).
        apply (s_find_some w); [lia | |]; [unfold sbit; rewrite nth_upd; destruct (Nat.eqb_spec p i); [lia|]; cbn [andb]; fold (sbit m p); rewrite MI; exact F1|].
        intros j J. unfold sbit. rewrite nth_upd. destruct (Nat.eqb_spec j i); [lia|]. cbn [andb]. fold (sbit m j). rewrite MI. apply F2. exact J.
      * apply (s_find_some w); [lia | |]; [unfold sbit; rewrite nth_upd_same by lia; reflexivity|]. intros j J. unfold sbit. rewrite nth_upd. destruct (Nat.eqb_spec j i); [lia|]. cbn [andb]. fold (sbit m j). rewrite MI. apply F. lia.
    + assert (E : equals (storage b) s1 = Done false).
      { destruct (equals_repr w _ _ _ _ S R1) as (r & E & I). rewrite E. f_equal. destruct r; [|reflexivity]. exfalso. destruct I as (I & _). specialize (I eq_refl i). rewrite ZI in I. unfold sbit in I. rewrite nth_upd_same in I by lia. discriminate. }
      pose proof (follows_done _ _ _ (fol_equals (storage b) s1) E) as E'. rewrite <- E'. rewrite <- (r_equals_blocks b (mkB (blocks s1) (bitCount b)) (room_of b) (bitCount s1)). destruct s1; reflexivity.
Qed.

(** Testing a bit outside reads a spare bit, always false, or is undefined. *)
Theorem C123_test : forall b l i, repr w b l -> length l <= i -> rTest w b i = if i <? room_of b then Done false else Fault FUB.
Proof.
  intros b l i R L. rewrite rTest_storage. destruct (Nat.ltb_spec i (room_of b)) as [H|H]; [|reflexivity]. rewrite (Test_repr w _ _ i (storage_repr _ _ R)).
  rewrite app_length, repeat_length. pose proof (room_le _ _ R). destruct (Nat.ltb_spec i (length l + (room_of b - length l))); [|lia]. f_equal.
  unfold sbit. rewrite app_nth2 by exact L. apply nth_repeat.
Qed.
(** FindNext from outside finds nothing; from npos, so also ++ on the end iterator, it starts again at the first bit. *)
Theorem C123_find_next : forall b l, repr w b l -> (forall i, length l <= i -> rFindNext w b (Some i) = Done None) /\
  rFindNext w b None = Done (s_find l 0) /\ r_iter_incr w b None = Done (s_find l 0).
Proof.
  intros b l R. assert (N : rFindNext w b None = Done (s_find l 0)).
  { pose proof R as (HC & HL & HS & HB). unfold rFindNext. rewrite HC. destruct (Nat.leb_spec (length l) 0) as [Z|Z].
    - destruct l; [reflexivity | cbn in Z; lia].
    - assert (GetBlockIndex w 0 = 0) as B0 by (unfold GetBlockIndex; apply Nat.div_0_l; lia). assert (GetBitIndex w 0 = 0) as I0 by (rewrite (GetBitIndex_mod w); apply Nat.mod_0_l; lia).
      assert (0 < length (blocks b)) as LB by (rewrite HL; pose proof (nblocks_0 w (length l)); lia).
      rewrite B0, I0, (vget_done _ _ 0%N) by exact LB. cbn [bind]. rewrite (shr_done w) by lia. cbn [bind]. rewrite N.shiftr_0_r.
      rewrite <- (FindFirst_repr w b l R). unfold FindFirst, FindFirstFrom. destruct (Nat.leb_spec (length (blocks b)) 0); [lia|]. cbn [skipn].
      destruct (blocks b) as [|x r] eqn:EB; [cbn in LB; lia|]. cbn [nth first_nonzero]. destruct (N.eqb_spec x 0); cbn [negb]; [|f_equal; f_equal; lia].
      destruct (Nat.leb_spec (length (x :: r)) (0 + 1)) as [Q|Q]; [|reflexivity]. destruct r; [reflexivity | cbn in Q; lia]. }
  split; [|split; exact N]. intros i L. destruct R as (HC & _). unfold rFindNext. rewrite HC. destruct (Nat.leb_spec (length l) (i + 1)); [reflexivity | lia].
Qed.
(** GetBlock and SetBlock outside are undefined, and so is operator< on different numbers of blocks. *)
Theorem C123_blocks_refuted : forall a b i x, length (blocks b) <= i -> rGetBlock b i = Fault FUB /\ rSetBlock w b i x = Fault FUB /\
  (length (blocks a) <> length (blocks b) -> r_less a b = Fault FUB).
Proof.
  intros a b i x L. assert (G : forall c k, length (blocks c) <= k -> rGetBlock c k = Fault FUB) by (intros c k K; unfold rGetBlock, vget; now rewrite (proj2 (nth_error_None _ _) K)).
  split; [now apply G|]. split; [unfold rSetBlock, vset; destruct (Nat.ltb_spec i (length (blocks b))); [lia | reflexivity]|].
  intros D. unfold r_less, GetBlockCount. destruct (Nat.ltb_spec (length (blocks b)) (length (blocks a))) as [Q|Q]; cbv beta iota.
  - destruct (Nat.ltb_spec (length (blocks b)) (length (blocks a))); [|lia]. rewrite (G a) by lia. reflexivity.
  - destruct (Nat.ltb_spec (length (blocks a)) (length (blocks b))); [|lia]. rewrite (G b) by lia. reflexivity.
Qed.

(** To of a type with too few bits: the lower bits, or undefined if a block starts beyond the (promoted) type. *)
Theorem C123_to : forall b l tw, repr w b l ->
  rTo w tw b = if room_of b <? Nat.max tw 32 + w then Done (s_value (firstn tw l)) else Fault FUB.
Proof.
  intros b l tw R. pose proof R as (HC & HL & HS & HB). unfold rTo.
  set (f := fun (value : N) (i : nat) => x <- vget (blocks b) i ;; if i * w <? Nat.max tw 32 then Done (N.lor value (N.shiftl (x mod 2 ^ N.of_nat tw) (N.of_nat (i * w))) mod 2 ^ N.of_nat tw)%N else Fault FUB).
  destruct (Nat.ltb_spec (room_of b) (Nat.max tw 32 + w)) as [G|G].
  - destruct (foreach_range (fun i v => forall k, N.testbit v (N.of_nat k) = if k <? w * i then (k <? tw) && sbit l k else false) f 0 (length (blocks b)) 0%N) as (v & E & H).
    + lia.
    + intros k. rewrite N.bits_0. destruct (Nat.ltb_spec k (w * 0)); [lia | reflexivity].
    + intros i v Hi H. unfold f. rewrite (vget_done _ _ 0%N) by lia. cbn [bind].
      assert (Hm : w * (i + 1) <= room_of b) by (apply (wmul_mono w); lia).
      rewrite Nat.mul_add_distr_l, Nat.mul_1_r in Hm. rewrite (Nat.mul_comm i w).
      destruct (Nat.ltb_spec (w * i) (Nat.max tw 32)); [|lia].
      eexists. split; [reflexivity|]. intros k.
      rewrite mod_pow2_testbit, N.lor_spec, shiftl_bits, mod_pow2_testbit, H.
      rewrite Nat.mul_add_distr_l, Nat.mul_1_r. destruct (N.ltb_spec (N.of_nat k) (N.of_nat tw)) as [K|K], (Nat.ltb_spec k tw) as [K'|K']; try lia; cbn [andb].
      * destruct (Nat.ltb_spec k (w * i)) as [K1|K1].
        -- destruct (N.leb_spec (N.of_nat (w * i)) (N.of_nat k)); [lia|]. cbn [andb]. rewrite orb_false_r. destruct (Nat.ltb_spec k (w * i + w)); [reflexivity | lia].
        -- destruct (N.leb_spec (N.of_nat (w * i)) (N.of_nat k)); [|lia]. cbn [andb orb].
           destruct (N.ltb_spec (N.of_nat k - N.of_nat (w * i)) (N.of_nat tw)); [|lia]. cbn [andb].
           replace (N.of_nat k - N.of_nat (w * i))%N with (N.of_nat (k - w * i)) by lia. rewrite (nth_bits w) by assumption.
           destruct (Nat.ltb_spec (k - w * i) w), (Nat.ltb_spec k (w * i + w)); try lia. rewrite HB. f_equal. lia.
      * destruct (k <? w * i + w); reflexivity.
    + rewrite E. f_equal. symmetry. apply s_value_ext. intros k. rewrite H. unfold sbit at 1. rewrite nth_firstn. fold (room_of b). destruct (Nat.ltb_spec k (room_of b)) as [K|K].
      * destruct (k <? tw); reflexivity.
      * destruct (k <? tw); [|reflexivity]. apply sbit_high. pose proof (room_le _ _ R). lia.
  - apply (foreach_undefined (fun _ => True)); trivial.
    + intros s i I _. apply in_seq in I. unfold f. rewrite (vget_done _ _ 0%N) by lia. cbn [bind]. destruct (i * w <? Nat.max tw 32); eauto.
    + assert (0 < length (blocks b)) as P by (unfold room_of in G; destruct (length (blocks b)); [rewrite Nat.mul_0_r in G; lia | lia]).
      exists (length (blocks b) - 1). split; [apply in_seq; lia|]. intros s _. unfold f. rewrite (vget_done _ _ 0%N) by lia. cbn [bind].
      pose proof (wmul_succ w _ P) as Q. unfold room_of in G. destruct (Nat.ltb_spec ((length (blocks b) - 1) * w) (Nat.max tw 32)); [lia | reflexivity].
Qed.
End Outside.
Print Assumptions C123_set_refuted.
Print Assumptions C123_test.
Print Assumptions C123_find_next.
Print Assumptions C123_blocks_refuted.
Print Assumptions C123_to.
(** Non-vacuity: a history with an assertion that fails, without one, and a write outside. *)
Example C123_nonvacuous :
  (match r_run 8 (fun _ => empty) [OMake 0 12 true; OShl 0 3; OSet 0 1 true] with Done st => st 0 | _ => empty end) = mkB [250; 15]%N 12 /\
  run 8 (fun _ => empty) [OMake 0 12 true; OSet 0 14 true] = Fault FAssert /\
  (match r_run 8 (fun _ => empty) [OMake 0 12 true; OSet 0 14 true] with Done st => st 0 | _ => empty end) = mkB [255; 79]%N 12 /\
  r_run 8 (fun _ => empty) [OMake 0 12 true; OSet 0 16 true] = Fault FUB /\
  rTo 8 8 (mkB [255; 79]%N 16) = Done 255%N /\ rTo 8 8 (mkB [1; 2; 3; 4; 5]%N 40) = Fault FUB.
Proof. vm_compute. repeat split; reflexivity. Qed.
