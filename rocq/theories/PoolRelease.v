(** MemoryPool with and without assertions. An assertion here contains a test of a bit that may itself be undefined, so that the two only agree on what ends. *)
From Verif Require Import CellProofs BitsetSpec BitsetBits BitsetProofs BitsetFind VectorCopy PoolModel PoolProofs PoolHistory BitsetReleaseModel BitsetRelease PoolReleaseModel Release.
Open Scope nat_scope.

Definition keeps {A} (o o' : outcome A) : Prop := forall a, o = Done a -> o' = Done a.
Lemma keeps_refl {A} (o : outcome A) : keeps o o.
Proof. intros a E. exact E. Qed.
Lemma keeps_follows {A} (o o' : outcome A) : follows o o' -> keeps o o'.
Proof. intros F a E. exact (follows_done _ _ _ F E). Qed.
Lemma keeps_bind {A B} (o o' : outcome A) (f f' : A -> outcome B) : keeps o o' -> (forall a, o = Done a -> keeps (f a) (f' a)) -> keeps (bind o f) (bind o' f').
Proof. intros H K c E. destruct o as [a|e]; [|discriminate]. rewrite (H a eq_refl). exact (K a eq_refl c E). Qed.
Lemma keeps_skip {A B} (o : outcome A) (k : A -> outcome B) (k' : outcome B) : (forall a, o = Done a -> keeps (k a) k') -> keeps (bind o k) k'.
Proof. intros K c E. destruct o as [a|e]; [exact (K a eq_refl c E) | discriminate]. Qed.
Lemma keeps_fault {A} f (o : outcome A) : keeps (Fault f) o.
Proof. intros a E. discriminate. Qed.

Section F.
Context {A : Type}.
Variables size stride : N.
Implicit Types (p : @pool A) (b : @pblock A).

Lemma kp_Set (b : bitset) i v : keeps (Set_ 64 b i v) (rSet 64 b i v).
Proof. apply keeps_follows, fol_Set. Qed.
Lemma kp_find_room bs (l : list (@pblock A)) : forall i, keeps (find_room bs l i) (rfind_room bs l i).
Proof.
  induction l as [|b l IH]; intros i; cbn [find_room rfind_room]; [apply keeps_refl|]. destruct (occupiedEntryCount b =? bs); [apply IH|].
  destruct (FindFirst 64 (freeEntries b)); [apply keeps_refl | apply keeps_fault].
Qed.
Lemma kp_Allocate_defer p at_ : keeps (Allocate_defer stride p at_) (rAllocate_defer stride p at_).
Proof.
  unfold Allocate_defer, rAllocate_defer. apply keeps_bind; [apply kp_find_room|]. intros found _. apply keeps_bind; [apply keeps_refl|]. intros [[p' bi] li] _.
  apply keeps_bind; [apply keeps_refl|]. intros b _. apply keeps_bind; [apply kp_Set|]. intros f _. apply keeps_bind; [apply kp_Set|]. intros o _. apply keeps_refl.
Qed.
Lemma kp_Allocate p a at_ : keeps (Allocate stride p a at_) (rAllocate stride p a at_).
Proof. unfold Allocate, rAllocate. apply keeps_bind; [apply kp_Allocate_defer|]. intros [[p' i] e] _. apply keeps_refl. Qed.
Lemma kp_pointer p i j : keeps (GetAllocatedPointer stride p i j) (rGetAllocatedPointer stride p i j).
Proof.
  unfold GetAllocatedPointer, rGetAllocatedPointer. apply keeps_skip. intros _ _. apply keeps_bind; [apply keeps_refl|]. intros b _.
  apply keeps_skip. intros t _. apply keeps_skip. intros _ _. apply keeps_refl.
Qed.
Lemma kp_Retrieve p i : keeps (RetrieveFromIndex stride p i) (rRetrieveFromIndex stride p i).
Proof. unfold RetrieveFromIndex, rRetrieveFromIndex. apply keeps_bind; [apply keeps_refl|]. intros [bi li] _. apply kp_pointer. Qed.
Lemma kp_release p i j : keeps (release p i j) (rrelease p i j).
Proof.
  unfold release, rrelease. apply keeps_bind; [apply keeps_refl|]. intros b _. apply keeps_bind; [destruct (0 <? occupiedEntryCount b); [apply keeps_refl | apply keeps_fault]|]. intros _ _.
  apply keeps_bind; [apply kp_Set|]. intros f _. apply keeps_bind; [apply kp_Set|]. intros o _. apply keeps_refl.
Qed.
Lemma kp_Free p i : keeps (Free stride p i) (rFree stride p i).
Proof.
  unfold Free, rFree. apply keeps_bind; [apply keeps_refl|]. intros [bi li] _. apply keeps_bind; [apply kp_pointer|]. intros e _. apply keeps_bind; [apply keeps_refl|]. intros p' _. apply kp_release.
Qed.
Lemma kp_Free_nodestruction p i : keeps (Free_nodestruction p i) (rFree_nodestruction p i).
Proof. unfold Free_nodestruction, rFree_nodestruction. apply keeps_bind; [apply keeps_refl|]. intros [bi li] _. apply kp_release. Qed.
Lemma kp_reset_block b : keeps (reset_block b) (rreset_block b).
Proof.
  unfold reset_block, rreset_block. destruct (occupiedEntryCount b =? 0); [apply keeps_refl|]. apply keeps_bind; [apply keeps_follows, fol_IterBits|]. intros ps _.
  apply keeps_bind; [apply keeps_refl|]. intros m _. apply keeps_bind; [apply kp_Set|]. intros f _. apply keeps_bind; [apply kp_Set|]. intros o _. apply keeps_refl.
Qed.
Lemma kp_Reset p : keeps (Reset p) (rReset p).
Proof.
  unfold Reset, rReset. apply keeps_bind; [|intros l _; apply keeps_refl]. induction (m_blocks p) as [|b l IH]; cbn [reset_blocks rreset_blocks]; [apply keeps_refl|].
  apply keeps_bind; [apply kp_reset_block|]. intros b' _. apply keeps_bind; [exact IH|]. intros l' _. apply keeps_refl.
Qed.
Lemma kp_Clear p : keeps (Clear p) (rClear p).
Proof. unfold Clear, rClear. apply keeps_bind; [apply kp_Reset|]. intros p' _. apply keeps_refl. Qed.
Lemma kp_destroy p : keeps (pool_destroy p) (rpool_destroy p).
Proof. unfold pool_destroy, rpool_destroy. apply keeps_bind; [apply kp_Reset|]. intros p' _. apply keeps_refl. Qed.
Lemma kp_entry_index p e : keeps (RetrieveEntryIndex size stride p e) (rRetrieveEntryIndex size p e).
Proof.
  unfold RetrieveEntryIndex, rRetrieveEntryIndex. generalize 0 as i. induction (m_blocks p) as [|b l IH]; intros i; cbn [find_owner rfind_owner]; [apply keeps_refl|].
  destruct ((base b <=? e) && (e <? base b + N.of_nat (m_blockSize p) * size))%N; [|apply IH]. apply keeps_bind; [apply keeps_refl|]. intros _ _. cbv zeta. apply keeps_skip. intros _ _. apply keeps_refl.
Qed.
Lemma kp_first p i : keeps (GetFirstAllocatedEntryFromBlock p i) (rGetFirstAllocatedEntryFromBlock p i).
Proof.
  unfold GetFirstAllocatedEntryFromBlock, rGetFirstAllocatedEntryFromBlock. generalize i at 2 4 as k. induction (skipn i (m_blocks p)) as [|b l IH]; intros k; cbn [first_allocated rfirst_allocated]; [apply keeps_refl|].
  destruct (occupiedEntryCount b =? 0); [apply IH|]. destruct (FindFirst 64 (occupiedEntries b)); [apply keeps_refl | apply keeps_fault].
Qed.
Lemma kp_next p i j : keeps (GetNextAllocatedEntry p i j) (rGetNextAllocatedEntry p i j).
Proof.
  unfold GetNextAllocatedEntry, rGetNextAllocatedEntry. apply keeps_skip. intros _ _. apply keeps_bind; [apply keeps_refl|]. intros b _.
  apply keeps_bind; [apply keeps_follows, fol_FindNext|]. intros [n|] _; [apply keeps_refl | apply kp_first].
Qed.
Lemma kp_iterate p : keeps (pool_iterate stride p) (rpool_iterate stride p).
Proof.
  unfold pool_iterate, rpool_iterate. apply keeps_bind; [apply kp_first|]. intros it _. revert it. induction (length (m_blocks p) * m_blockSize p) as [|n IH]; intros [[i j]|]; cbn [pool_loop rpool_loop]; try apply keeps_refl.
  apply keeps_bind; [apply kp_pointer|]. intros a _. apply keeps_bind; [apply kp_next|]. intros nx _. apply keeps_bind; [apply IH|]. intros r _. apply keeps_refl.
Qed.
Lemma kp_apply p (o : pop A) : keeps (pool_apply stride p o) (rpool_apply stride p o).
Proof.
  destruct o; cbn [pool_apply rpool_apply].
  - apply keeps_bind; [apply kp_Allocate|]. intros [[p' i] e] _. apply keeps_refl.
  - apply keeps_bind; [apply kp_Allocate_defer|]. intros [[p' i] e] _. apply keeps_refl.
  - apply keeps_refl.
  - apply keeps_refl.
  - apply keeps_bind; [apply kp_Free|]. intros p' _. apply keeps_refl.
  - apply keeps_bind; [apply kp_Free_nodestruction|]. intros p' _. apply keeps_refl.
  - apply keeps_bind; [apply kp_Clear|]. intros [p' d] _. apply keeps_refl.
Qed.
Lemma kp_run ops : forall p, keeps (pool_run stride p ops) (rpool_run stride p ops).
Proof.
  induction ops as [|o ops IH]; intros p; cbn [pool_run rpool_run]; [apply keeps_refl|]. apply keeps_bind; [apply kp_apply|]. intros [p' r] _. apply keeps_bind; [apply IH|]. intros [p'' rs] _. apply keeps_refl.
Qed.

(** ** Blocks of one entry: resetting bit 1 of a Bitset of one bit is defined. *)
Lemma rSet_one (b : bitset) l i : repr 64 b l -> length l = 1 -> i < 64 -> exists c, rSet 64 b i false = Done c.
Proof.
  intros (_ & H2 & _) L Hi. rewrite L in H2. change (nblocks 64 1) with 1 in H2. unfold rSet, GetBlockIndex. rewrite Nat.div_small by exact Hi.
  destruct (blocks b) as [|x [|y r]]; try discriminate. cbn [vget nth_error bind]. assert (G : GetBitIndex 64 i = i) by (unfold GetBitIndex; change (64 - 1) with (Nat.ones 6); rewrite Nat.land_ones; apply Nat.mod_small; exact Hi). rewrite G. unfold shl. change (pw 64) with 64. replace (i <? 64) with true by (symmetry; now apply Nat.ltb_lt).
  cbn [bind]. rewrite vset_done by (cbn; lia). cbn [bind]. eauto.
Qed.

Variable bs : nat.
Hypothesis bs_pos : 0 < bs.

Lemma rreset_block_rep b s : blk bs b s -> sp_settled s = true -> exists b', rreset_block b = Done b' /\ memory b' = repeat Raw bs.
Proof.
  intros HK HS. assert (C : 2 <= bs \/ bs = 1) by lia. destruct C as [C|C].
  - destruct (reset_block_rep bs bs_pos b s HK HS (or_introl C)) as (b' & E & _ & _ & M & _). exists b'. split; [exact (kp_reset_block b _ E) | exact M].
  - destruct HK as (HL & HC & HM & HF & HO). unfold rreset_block. rewrite HC. destruct (Nat.eqb_spec (sp_count s) 0) as [Z|NZ].
    + exists b. split; [reflexivity|]. rewrite HM, (count_zero s Z), HL. apply cells_raw.
    + rewrite (follows_done _ _ _ (fol_IterBits 64 (occupiedEntries b)) (IterBits_repr 64 _ _ HO)). cbn [bind]. unfold s_positions. rewrite map_length.
      pose proof (destroy_held bs bs_pos s 0) as D. cbn [repeat app Nat.add] in D. rewrite (filter_ext _ (sbit (map held s))) in D by (intros; now rewrite Nat.sub_0_r).
      rewrite HM, D, HS. cbn [bind]. unfold rResetBit. destruct (rSet_one _ _ 1 HF) as (f & ->); [rewrite map_length; lia | lia |]. cbn [bind].
      destruct (rSet_one _ _ 0 HO) as (o & ->); [rewrite map_length; lia | lia |]. cbn [bind]. eexists. split; [reflexivity|]. cbn [memory]. now rewrite HL.
Qed.

Lemma rClear_rep p ss : rep bs p ss -> sp_settled (concat ss) = true ->
  exists dropped, rClear p = Done (MP bs [], dropped) /\ rpool_destroy p = Done dropped /\ Forall (fun b => memory b = repeat Raw bs) dropped /\ length dropped = length (m_blocks p).
Proof.
  intros (HB & H) HS. assert (G : exists l', rreset_blocks (m_blocks p) = Done l' /\ Forall (fun b => memory b = repeat Raw bs) l' /\ length l' = length (m_blocks p)).
  { revert HS. induction H as [|b s l ss Hb H IH]; intros HS; [exists []; repeat split; constructor|].
    rewrite settled_concat in HS. cbn [forallb] in HS. apply andb_prop in HS. destruct HS as (HS1 & HS2). rewrite <- settled_concat in HS2.
    destruct (rreset_block_rep b s Hb HS1) as (b' & E & M). destruct (IH HS2) as (l' & E' & M' & L'). exists (b' :: l'). cbn [rreset_blocks]. rewrite E. cbn [bind]. rewrite E'. cbn [bind length].
    split; [reflexivity|]. split; [now constructor | congruence]. }
  destruct G as (l' & E & M & L). exists l'. unfold rClear, rpool_destroy, rReset. rewrite E. cbn [bind m_blocks m_blockSize]. rewrite HB. auto.
Qed.

Lemma rstep p ss o l r : rep bs p ss -> sp_apply bs (concat ss) o = Done (l, r) ->
  exists p' ss', rpool_apply stride p o = Done (p', option_map (fun i => (i, place bs stride (bases p') i)) r) /\ rep bs p' ss' /\ concat ss' = l.
Proof.
  intros R E. destruct (is_clear o) eqn:C.
  - destruct o; try discriminate. cbn [sp_apply rpool_apply] in *. destruct (sp_settled (concat ss)) eqn:S; [|discriminate]. injection E as <- <-.
    destruct (rClear_rep p ss R S) as (d & -> & _). cbn [bind]. exists (MP bs []), []. repeat split; auto. constructor.
  - destruct (pool_step stride bs bs_pos p ss o l r R E (or_introl C)) as (p' & ss' & E' & R' & C' & _). exists p', ss'. split; [exact (kp_apply p o _ E') | auto].
Qed.
Lemma rhistory ops : forall p ss l rs, rep bs p ss -> sp_run bs (concat ss) ops = Done (l, rs) ->
  exists p' ss' ptrs, rpool_run stride p ops = Done (p', ptrs) /\ rep bs p' ss' /\ concat ss' = l /\ map (option_map fst) ptrs = rs.
Proof.
  induction ops as [|o ops IH]; intros p ss l rs R E; cbn [sp_run rpool_run] in *.
  - injection E as <- <-. exists p, ss, []. auto.
  - destruct (sp_apply bs (concat ss) o) as [[l1 r]|] eqn:E1; [|discriminate]. cbn [bind] in E. destruct (sp_run bs l1 ops) as [[l2 rs2]|] eqn:E2; [|discriminate]. injection E as <- <-.
    destruct (rstep p ss o l1 r R E1) as (p1 & ss1 & -> & R1 & C1). cbn [bind]. rewrite <- C1 in E2. destruct (IH p1 ss1 l2 rs2 R1 E2) as (p2 & ss2 & ptrs & -> & R2 & C2 & M2). cbn [bind].
    do 3 eexists. split; [reflexivity|]. split; [exact R2|]. split; [exact C2|]. cbn [map]. rewrite M2. f_equal. now destruct r.
Qed.
End F.
