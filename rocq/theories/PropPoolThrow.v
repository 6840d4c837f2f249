(** Property C85: what an exception leaves behind in a MemoryPool. *)
From Verif Require Import CellProofs BitsetSpec BitsetBits BitsetProofs BitsetFind VectorCopy PoolModel PoolProofs PoolHistory PoolReset PropPool PoolThrowModel.
Open Scope nat_scope.

Section Facts.
Context {A : Type}.
Variables (stride : N) (bs : nat).

Lemma pool_run_app ops : forall (p : @pool A) ops', pool_run stride p (ops ++ ops') =
  (' (p, r) <- pool_run stride p ops ;; ' (p, r') <- pool_run stride p ops' ;; Done (p, r ++ r')).
Proof.
  induction ops as [|o ops IH]; intros p ops'; cbn [app pool_run bind]; [destruct (pool_run stride p ops') as [[? ?]|]; reflexivity|].
  destruct (pool_apply stride p o) as [[p1 r]|]; cbn [bind]; [|reflexivity]. rewrite IH. destruct (pool_run stride p1 ops) as [[p2 r2]|]; cbn [bind]; [|reflexivity].
  destruct (pool_run stride p2 ops') as [[p3 r3]|]; reflexivity.
Qed.
Lemma sp_run_app ops : forall (l : list (slot A)) ops', sp_run bs l (ops ++ ops') =
  (' (l, r) <- sp_run bs l ops ;; ' (l, r') <- sp_run bs l ops' ;; Done (l, r ++ r')).
Proof.
  induction ops as [|o ops IH]; intros p ops'; cbn [app sp_run bind]; [destruct (sp_run bs p ops') as [[? ?]|]; reflexivity|].
  destruct (sp_apply bs p o) as [[p1 r]|]; cbn [bind]; [|reflexivity]. rewrite IH. destruct (sp_run bs p1 ops) as [[p2 r2]|]; cbn [bind]; [|reflexivity].
  destruct (sp_run bs p2 ops') as [[p3 r3]|]; reflexivity.
Qed.

Lemma reached_step (p p' : @pool A) l l' o r r' : reached stride bs p l -> pool_apply stride p o = Done (p', r) -> sp_apply bs l o = Done (l', r') -> reached stride bs p' l'.
Proof.
  intros (at0 & p0 & ops & rs & ptrs & EN & EP & ES) P S. exists at0, p0, (ops ++ [o]), (rs ++ [r']), (ptrs ++ [r]). split; [exact EN|]. split.
  - rewrite pool_run_app, EP. cbn [bind pool_run]. rewrite P. reflexivity.
  - rewrite sp_run_app, ES. cbn [bind sp_run]. rewrite S. reflexivity.
Qed.

Lemma reset_block_unsettled b (s : list (slot A)) : blk bs b s -> sp_settled s = false -> reset_block b = Fault FUB.
Proof.
  intros (HL & HC & HM & HF & HO) HS. unfold reset_block. rewrite HC. destruct (Nat.eqb_spec (sp_count s) 0) as [Z|NZ].
  - exfalso. rewrite (count_zero s Z) in HS. clear -HS. induction (length s); [discriminate|]. auto.
  - rewrite (IterBits_repr 64 _ _ HO). cbn [bind]. unfold s_positions. rewrite map_length.
    pose proof (destroy_held 1 (le_n 1) s 0) as D. cbn [repeat app Nat.add] in D. rewrite (filter_ext _ (sbit (map held s))) in D by (intros; now rewrite Nat.sub_0_r).
    rewrite HM, D, HS. reflexivity.
Qed.
Lemma reset_blocks_unsettled l (ss : list (list (slot A))) : 2 <= bs -> Forall2 (blk bs) l ss -> sp_settled (concat ss) = false -> reset_blocks l = Fault FUB.
Proof.
  intros HB H. induction H as [|b s l ss Hb H IH]; intros HS; [discriminate|]. rewrite settled_concat in HS. cbn [forallb] in HS. cbn [reset_blocks].
  destruct (sp_settled s) eqn:E.
  - destruct (reset_block_rep bs ltac:(lia) b s Hb E (or_introl HB)) as (b' & -> & _). cbn [bind]. rewrite IH; [reflexivity|]. now rewrite settled_concat.
  - now rewrite (reset_block_unsettled b s Hb E).
Qed.
End Facts.

Lemma unsettled_at {A} (l : list (slot A)) i : nth_error l i = Some Deferred -> sp_settled l = false.
Proof. revert i. unfold sp_settled. induction l as [|x l IH]; intros [|i] E; try discriminate; cbn [forallb nth_error] in *; [now injection E as ->|]. rewrite (IH i E). apply andb_false_r. Qed.

(** The constructor throws: the entry stays allocated without an object, and destroying the pool, clearing it, or freeing the entry is undefined. *)
Theorem C85_constructor_throws_refuted : forall (A : Type) stride bs (p : @pool A) l at_, 2 <= bs -> reached stride bs p l ->
  exists p' i, Allocate_throwing stride p at_ = Done (p', i) /\ GetAllocatedEntryCount p' = GetAllocatedEntryCount p + 1 /\
  pool_destroy p' = Fault FUB /\ Clear p' = Fault FUB /\ Free stride p' i = Fault FUB.
Proof.
  intros A stride bs p l at_ HB HR. destruct (reached_rep stride bs ltac:(lia) p l HR) as (ss & R & <-).
  pose proof (Allocate_defer_rep bs stride ltac:(lia) p ss at_ R) as D. destruct (sp_take bs (concat ss) Deferred) as [l' i] eqn:T. destruct D as (p' & ss' & E & R' & C' & _ & Ei).
  exists p', i. unfold Allocate_throwing. rewrite E. split; [reflexivity|]. pose proof R' as (HS & H').
  assert (U : reset_blocks (m_blocks p') = Fault FUB) by (apply (reset_blocks_unsettled bs _ ss' HB H'); now apply (unsettled_at _ i)).
  unfold pool_destroy, Clear, Reset. rewrite U. split; [|split; [reflexivity|split; [reflexivity|]]].
  - rewrite (allocated_rep bs ltac:(lia) p ss R), (allocated_rep bs ltac:(lia) p' ss' R'), C'. unfold sp_take in T. destruct (first_vacant (concat ss)) as [j|] eqn:F.
    + injection T as <- <-. destruct (first_vacant_some 0 _ _ F) as (_ & V & _). pose proof (count_upd 0 (concat ss) j Vacant Deferred V) as Q. cbn [held vacant negb] in Q. lia.
    + injection T as <- <-. rewrite count_app. unfold sp_count at 2. cbn [filter held vacant negb length]. f_equal. f_equal. clear. induction (bs - 1); auto.
  - unfold Free. pose proof (Retrieve_rep bs stride ltac:(lia) p' ss' i R') as P. rewrite Ei in P. unfold RetrieveFromIndex in P. destruct (split_index p' i) as [[j k]|] eqn:S; cbn [bind] in *; [|discriminate].
    cbn [held vacant negb] in P. destruct (GetAllocatedPointer stride p' j k); [|discriminate]. cbn [bind].
    unfold on_cell. destruct (rows_split bs ss' i _ ltac:(lia) (rep_rows bs p' ss' R') Ei) as (s & Es & Ex). destruct (Forall2_nth _ _ _ _ _ H' Es) as (b & Eb & (HL & HC & HM & _)).
    rewrite HS, (vget_some _ _ _ Eb). cbn [bind]. unfold destroy. rewrite HM, (map_nth_error _ _ _ Ex). reflexivity.
Qed.
Print Assumptions C85_constructor_throws_refuted.

(** The index has been written, and Free(index, NoDestruction) repairs the pool: it is as before, with a block more if there was no room. *)
Theorem C85_repair : forall (A : Type) stride bs (p : @pool A) l at_ p' i, 0 < bs -> reached stride bs p l -> Allocate_throwing stride p at_ = Done (p', i) ->
  exists p'', Free_nodestruction p' i = Done p'' /\ reached stride bs p'' (match first_vacant l with Some _ => l | None => l ++ repeat Vacant bs end).
Proof.
  intros A stride bs p l at_ p' i HB HR E. destruct (reached_rep stride bs HB p l HR) as (ss & R & <-). unfold Allocate_throwing in E.
  pose proof (Allocate_defer_rep bs stride HB p ss at_ R) as D. destruct (sp_take bs (concat ss) Deferred) as [l' j] eqn:T. destruct D as (p1 & ss' & ED & R' & C' & _ & Ei).
  rewrite ED in E. cbn [bind] in E. injection E as -> ->. destruct (Free_nodestruction_rep bs HB p' ss' i R' Ei) as (p'' & ss'' & EF & _ & C'' & _).
  exists p''. split; [exact EF|].
  assert (H1 : reached stride bs p' l').
  { eapply (reached_step stride bs p p' (concat ss) l' (PDefer at_)); [exact HR| |].
    - cbn [pool_apply]. rewrite ED. reflexivity.
    - cbn [sp_apply]. rewrite T. reflexivity. }
  assert (H2 : reached stride bs p'' (upd l' i Vacant)).
  { eapply (reached_step stride bs p' p'' l' _ (PFreeNoDestruction i)); [exact H1| |].
    - cbn [pool_apply]. rewrite EF. reflexivity.
    - cbn [sp_apply]. rewrite <- C', Ei. reflexivity. }
  replace (match first_vacant (concat ss) with Some _ => concat ss | None => concat ss ++ repeat Vacant bs end) with (upd l' i Vacant); [exact H2|].
  unfold sp_take in T. destruct (first_vacant (concat ss)) as [k|] eqn:F; injection T as <- <-.
  - destruct (first_vacant_some 0 _ _ F) as (_ & V & _). rewrite upd_upd. now apply upd_id.
  - rewrite upd_mid by reflexivity. do 2 f_equal. destruct bs as [|n]; [lia|]. cbn [repeat Nat.sub]. now rewrite Nat.sub_0_r.
Qed.
Print Assumptions C85_repair.

(** An allocation fails while a block is added: if it is the push in m_blocks nothing changed. Otherwise a useless block stays in the pool:
    every later Allocate finds it, and asserts or constructs in memory that does not exist. *)
Theorem C85_failed_block_refuted : forall (A : Type) stride bs (p : @pool A) l k (a : A) at_, 0 < bs -> reached stride bs p l -> first_vacant l = None -> k <> InVector ->
  exists p', AllocateBlock_throwing p k = Done p' /\ GetBlockCount p' = GetBlockCount p + 1 /\
  Allocate stride p' a at_ = Fault (match k with InMemory => FUB | _ => FAssert end).
Proof.
  intros A stride bs p l k a at_ HB HR HV HK. destruct (reached_rep stride bs HB p l HR) as (ss & R & <-). pose proof R as (HS & H).
  destruct (@blk_fresh A bs 0) as (f & o & Ef & Eo & (_ & _ & _ & Hf & Ho)). cbn [freeEntries occupiedEntries] in *.
  assert (FR : forall b, occupiedEntryCount b = 0 -> find_room bs (m_blocks p ++ [b]) 0 =
     match FindFirst 64 (freeEntries b) with Some q => Done (Some (length (m_blocks p), q)) | None => Fault FAssert end).
  { intros b Hb. pose proof (room_vacant bs ss 0 (rep_rows bs p ss R)) as V. rewrite HV in V. destruct (room ss 0) as [[? ?]|] eqn:RM; [discriminate|]. pose proof (find_room_rep bs (m_blocks p) ss 0 H) as FR. rewrite RM in FR.
    assert (G : forall lb i, find_room bs lb i = Done None -> find_room bs (lb ++ [b]) i = match FindFirst 64 (freeEntries b) with Some q => Done (Some (i + length lb, q)) | None => Fault FAssert end).
    { clear -Hb HB. induction lb as [|c lb IH]; intros i E; cbn [find_room app length] in *.
      - rewrite Hb. replace (0 =? bs) with false by lia. now rewrite Nat.add_0_r.
      - destruct (occupiedEntryCount c =? bs); [|destruct (FindFirst 64 (freeEntries c)); discriminate]. rewrite IH by assumption. now replace (i + 1 + length lb) with (i + S (length lb)) by lia. }
    exact (G (m_blocks p) 0 FR). }
  assert (VG : forall b, vget (m_blocks p ++ [b]) (length (m_blocks p)) = Done b) by (intros b; apply vget_some, nth_error_mid; reflexivity).
  assert (F1 : FindFirst 64 f = Some 0).
  { rewrite (FindFirst_repr 64 _ _ Hf). destruct bs as [|n]; [lia|]. reflexivity. }
  unfold AllocateBlock_throwing. rewrite HS, Ef, Eo. cbn [bind]. destruct k; [contradiction| | |].
  - eexists. split; [reflexivity|]. split; [unfold GetBlockCount; cbn [m_blocks]; now rewrite app_length|]. unfold Allocate, Allocate_defer. cbn [m_blockSize m_blocks]. rewrite FR by reflexivity. reflexivity.
  - eexists. split; [reflexivity|]. split; [unfold GetBlockCount; cbn [m_blocks]; now rewrite app_length|]. unfold Allocate, Allocate_defer. cbn [m_blockSize m_blocks]. rewrite FR by reflexivity. cbn [freeEntries]. rewrite F1. cbn [bind m_blocks].
    rewrite VG. cbn [bind freeEntries occupiedEntries]. unfold ResetBit. destruct (Set_done 64 _ _ 0 false Hf) as (f' & -> & _); [rewrite map_length, repeat_length; lia|]. cbn [bind]. reflexivity.
  - eexists. split; [reflexivity|]. split; [unfold GetBlockCount; cbn [m_blocks]; now rewrite app_length|]. unfold Allocate, Allocate_defer. cbn [m_blockSize m_blocks]. rewrite FR by reflexivity. cbn [freeEntries]. rewrite F1. cbn [bind m_blocks].
    rewrite VG. cbn [bind freeEntries occupiedEntries]. unfold ResetBit. destruct (Set_done 64 _ _ 0 false Hf) as (f' & -> & _); [rewrite map_length, repeat_length; lia|]. cbn [bind].
    destruct (Set_done 64 _ _ 0 true Ho) as (o' & -> & _); [rewrite map_length, repeat_length; lia|]. cbn [bind]. rewrite vset_done by (rewrite app_length; cbn; lia). cbn [bind].
    unfold user_construct, on_cell. cbn [m_blockSize m_blocks]. rewrite Nat.add_0_r, Nat.div_mul, Nat.mod_mul by lia. rewrite upd_mid by reflexivity. rewrite VG. reflexivity.
Qed.
Print Assumptions C85_failed_block_refuted.
(** Nothing was allocated in it, though: the destructor is not affected. *)
Theorem C85_failed_block_destroys : forall (A : Type) stride bs (p : @pool A) l k, 2 <= bs -> reached stride bs p l -> sp_settled l = true ->
  exists p' dropped, AllocateBlock_throwing p k = Done p' /\ pool_destroy p' = Done dropped /\ Forall (fun b => Forall (fun c => c = Raw) (memory b)) dropped.
Proof.
  intros A stride bs p l k HB HR HS. destruct (reached_rep stride bs ltac:(lia) p l HR) as (ss & R & <-). pose proof R as (HZ & H).
  destruct (reset_blocks_rep bs ltac:(lia) _ _ H HS (or_introl HB)) as (l' & E & W & L). pose proof (wiped_raw bs _ _ _ W) as AR.
  assert (AR' : Forall (fun b => Forall (fun c => c = Raw) (memory b)) l').
  { apply (Forall_impl _ (P := fun b => memory b = repeat Raw bs)); [|exact AR]. intros b ->. apply Forall_forall. intros c Hc. now apply repeat_spec in Hc. }
  assert (RB : forall b, occupiedEntryCount b = 0 -> memory b = [] -> exists d, reset_blocks (m_blocks p ++ [b]) = Done d /\ Forall (fun b => Forall (fun c => c = Raw) (memory b)) d).
  { intros b Hb Hm. assert (G : forall lb lb', reset_blocks lb = Done lb' -> reset_blocks (lb ++ [b]) = Done (lb' ++ [b])).
    { clear -Hb. induction lb as [|c lb IH]; intros lb' E; cbn [reset_blocks app] in *.
      - injection E as <-. unfold reset_block. rewrite Hb. reflexivity.
      - destruct (reset_block c) as [c'|]; [|discriminate]. cbn [bind] in *. destruct (reset_blocks lb) as [r|]; [|discriminate]. cbn [bind] in E. injection E as <-. now rewrite (IH r eq_refl). }
    exists (l' ++ [b]). split; [now apply G|]. apply Forall_app. split; [exact AR'|]. constructor; [rewrite Hm|]; constructor. }
  destruct (@blk_fresh A bs 0) as (f & o & Ef & Eo & _). unfold AllocateBlock_throwing. rewrite HZ, Ef, Eo. cbn [bind].
  destruct k.
  - exists p, l'. split; [reflexivity|]. unfold pool_destroy, Reset. rewrite E. auto.
  - destruct (RB (PB 0 0 [] empty empty) eq_refl eq_refl) as (d & Ed & Hd). eexists. exists d. split; [reflexivity|]. unfold pool_destroy, Reset. cbn [m_blocks]. rewrite Ed. auto.
  - destruct (RB (PB 0 0 [] f empty) eq_refl eq_refl) as (d & Ed & Hd). eexists. exists d. split; [reflexivity|]. unfold pool_destroy, Reset. cbn [m_blocks]. rewrite Ed. auto.
  - destruct (RB (PB 0 0 [] f o) eq_refl eq_refl) as (d & Ed & Hd). eexists. exists d. split; [reflexivity|]. unfold pool_destroy, Reset. cbn [m_blocks]. rewrite Ed. auto.
Qed.
Print Assumptions C85_failed_block_destroys.
Example C85_throw : exists p0 p1 p2, pool_new 2 0 = Done p0 /\ @Allocate_throwing nat 8 p0 0 = Done (p1, 0) /\ pool_destroy p1 = Fault FUB /\ Free_nodestruction p1 0 = Done p2 /\ is_done (pool_destroy p2) = true.
Proof. do 3 eexists. split; [vm_compute; reflexivity|]. split; [vm_compute; reflexivity|]. split; [vm_compute; reflexivity|]. split; [vm_compute; reflexivity|]. vm_compute; reflexivity. Qed.
Example C85_block : exists p0 p1 p2 r, pool_new 1 0 = Done p0 /\ pool_run 8 p0 [PAlloc 5 0%N] = Done (p1, r) /\ AllocateBlock_throwing p1 InMemory = Done p2 /\ Allocate 8 p2 6 0 = Fault FUB.
Proof. do 4 eexists. split; [vm_compute; reflexivity|]. split; [vm_compute; reflexivity|]. split; [vm_compute; reflexivity|]. vm_compute; reflexivity. Qed.
