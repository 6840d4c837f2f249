(** Property C127: MemoryPool compiled without assertions. *)
From Verif Require Import CellProofs BitsetSpec BitsetBits BitsetProofs BitsetFind VectorCopy PoolModel PoolProofs PoolHistory PoolReset PropPool PoolReleaseModel PoolRelease.
Open Scope nat_scope.

(** Every history that ends with assertions ends in the same way without, and so does every reading of the pool. *)
Theorem C127_history : forall (A : Type) stride (ops : list (pop A)) p r, pool_run stride p ops = Done r -> rpool_run stride p ops = Done r.
Proof. intros A stride ops p r. apply kp_run. Qed.
Print Assumptions C127_history.
Theorem C127_members : forall (A : Type) size stride (p : @pool A) i e,
  (forall r, RetrieveFromIndex stride p i = Done r -> rRetrieveFromIndex stride p i = Done r) /\ (forall r, RetrieveEntryIndex size stride p e = Done r -> rRetrieveEntryIndex size p e = Done r) /\
  (forall r, pool_iterate stride p = Done r -> rpool_iterate stride p = Done r) /\ (forall r, Clear p = Done r -> rClear p = Done r) /\ (forall r, pool_destroy p = Done r -> rpool_destroy p = Done r) /\
  (forall r, Reset p = Done r -> rReset p = Done r).
Proof. intros A size stride p i e. split; [apply kp_Retrieve|]. split; [apply kp_entry_index|]. split; [apply kp_iterate|]. split; [apply kp_Clear|]. split; [apply kp_destroy | apply kp_Reset]. Qed.
Print Assumptions C127_members.

(** Every history that keeps to the contract has the specified effect, Clear with blocks of one entry included, and destroying the pool destroys every object left. *)
Theorem C127_specified : forall (A : Type) stride bs at0 (ops : list (pop A)) l rs, 0 < bs -> sp_run bs (repeat Vacant bs) ops = Done (l, rs) ->
  exists p0 p ptrs, pool_new bs at0 = Done p0 /\ rpool_run stride p0 ops = Done (p, ptrs) /\ map (option_map fst) ptrs = rs /\
    GetAllocatedEntryCount p = length (filter held l) /\ GetBlockCount p * bs = length l /\
    (forall i a, nth_error l i = Some (Live a) -> object p i = Done (Some a)) /\
    (sp_settled l = true -> exists dropped, rClear p = Done (MP bs [], dropped) /\ rpool_destroy p = Done dropped /\ Forall (fun b => memory b = repeat Raw bs) dropped /\ length dropped = GetBlockCount p).
Proof.
  intros A stride bs at0 ops l rs HB ES. destruct (@pool_new_rep A bs at0) as (p0 & E0 & R0 & _).
  assert (C : concat [repeat (@Vacant A) bs] = repeat Vacant bs) by (cbn; apply app_nil_r). rewrite <- C in ES.
  destruct (rhistory stride bs HB ops p0 _ l rs R0 ES) as (p & ss & ptrs & E & R & <- & M). exists p0, p, ptrs. split; [exact E0|]. split; [exact E|]. split; [exact M|].
  split; [exact (allocated_rep bs HB p ss R)|]. split; [unfold GetBlockCount; rewrite (rep_len bs p ss R), (rows_length bs ss (rep_rows bs p ss R)); lia|].
  split; [intros i a N; exact (object_rep bs HB p ss i a R N)|]. intros S. exact (rClear_rep bs HB p ss R S).
Qed.
Print Assumptions C127_specified.

(** An entry that is not held has an address all the same; freeing it, or an entry without an object, is undefined, and so is any index beyond the blocks. *)
Theorem C127_unallocated_refuted : forall (A : Type) stride bs (p : @pool A) l i, 0 < bs -> reached stride bs p l ->
  (nth_error l i = Some Vacant -> (exists e, rRetrieveFromIndex stride p i = Done e /\ forall at_ p' e', Allocate_defer stride p at_ = Done (p', i, e') -> e' = e) /\ rFree stride p i = Fault FUB) /\
  (nth_error l i = Some Deferred -> rFree stride p i = Fault FUB) /\
  (nth_error l i = None -> rRetrieveFromIndex stride p i = Fault FUB /\ rFree stride p i = Fault FUB /\ rFree_nodestruction p i = Fault FUB).
Proof.
  intros A stride bs p l i HB HR. destruct (reached_rep stride bs HB p l HR) as (ss & R & <-). pose proof R as (HBp & H). pose proof (rep_rows bs p ss R) as HW.
  assert (SP : split_index p i = Done (i / bs, i mod bs)) by (unfold split_index; rewrite HBp; now replace (bs =? 0) with false by lia).
  assert (IN : forall x, nth_error (concat ss) i = Some x -> cell_of x = Raw -> rRetrieveFromIndex stride p i = Done (place bs stride (bases p) i) /\ rFree stride p i = Fault FUB).
  { intros x E Hx. destruct (rows_split bs ss i x HB HW E) as (s & Es & Ex). destruct (Forall2_nth _ _ _ _ _ H Es) as (b & Eb & (HL & HC & HM & _)).
    assert (P : rGetAllocatedPointer stride p (i / bs) (i mod bs) = Done (place bs stride (bases p) i)).
    { unfold rGetAllocatedPointer. rewrite (vget_some _ _ _ Eb). cbn [bind]. unfold place. rewrite (nth_error_nth (bases p) _ 0%N (map_nth_error base _ _ Eb)). reflexivity. }
    unfold rRetrieveFromIndex, rFree. rewrite SP. cbn [bind]. rewrite P. split; [reflexivity|]. cbn [bind]. unfold on_cell. rewrite HBp, (vget_some _ _ _ Eb). cbn [bind].
    unfold destroy. rewrite HM, (map_nth_error _ _ _ Ex), Hx. reflexivity. }
  split; [|split].
  - intros E. destruct (IN _ E eq_refl) as (P & F). split; [|exact F]. eexists. split; [exact P|]. intros at_ p' e' EA.
    pose proof (Allocate_defer_rep bs stride HB p ss at_ R) as D. destruct (sp_take bs (concat ss) Deferred) as [l1 j] eqn:T.
    destruct D as (p1 & ss1 & E1 & _ & _ & B1 & _). rewrite EA in E1. injection E1 as -> <- ->. unfold place. rewrite B1. assert (L : i / bs < length (bases p)).
    { unfold bases. rewrite map_length. destruct (rows_split bs ss i _ HB HW E) as (s & Es & _). rewrite (rep_len bs p ss R). apply nth_error_Some. congruence. }
    now rewrite app_nth1 by exact L.
  - intros E. now destruct (IN _ E eq_refl).
  - intros E. apply nth_error_None in E. pose proof (rows_outside bs ss i HB HW E) as O.
    assert (V : vget (m_blocks p) (i / bs) = Fault FUB) by (unfold vget; rewrite (proj2 (nth_error_None _ _)); [reflexivity | rewrite (rep_len bs p ss R); exact O]).
    unfold rRetrieveFromIndex, rFree, rFree_nodestruction. rewrite SP. cbn [bind]. unfold rGetAllocatedPointer, rrelease. rewrite V. repeat split; reflexivity.
Qed.
Print Assumptions C127_unallocated_refuted.

Section Owner.
Context {A : Type}.
Variables (size stride : N) (bs : nat).
Lemma rfind_owner_none (l : list (@pblock A)) data : (size <= stride)%N -> (forall c, In c l -> (data < base c)%N \/ (base c + N.of_nat bs * stride <= data)%N) -> forall i, rfind_owner size bs data l i = Done None.
Proof.
  intros HS. assert (L : (N.of_nat bs * size <= N.of_nat bs * stride)%N) by (apply N.mul_le_mono_l; exact HS).
  induction l as [|c l IH]; intros H i; cbn [rfind_owner]; [reflexivity|]. destruct (N.leb_spec (base c) data); destruct (N.ltb_spec data (base c + N.of_nat bs * size)); cbn [andb].
  1: exfalso; destruct (H c (or_introl eq_refl)); lia. all: apply IH; intros d Hd; apply H; now right.
Qed.
Lemma rfind_owner_at (l : list (@pblock A)) i j b off : (size <= stride)%N -> nth_error l j = Some b -> (off < N.of_nat bs * stride)%N ->
  (forall k c, k <> j -> nth_error l k = Some c -> (base b + off < base c)%N \/ (base c + N.of_nat bs * stride <= base b + off)%N) ->
  rfind_owner size bs (base b + off) l i = (if off <? N.of_nat bs * size then if off mod size =? 0 then Done (Some ((i + j) * bs + N.to_nat (off / size))%nat) else Fault FUB else Done None)%N.
Proof.
  intros HS. assert (LE : (N.of_nat bs * size <= N.of_nat bs * stride)%N) by (apply N.mul_le_mono_l; exact HS). revert i j. induction l as [|c l IH]; intros i j E HO H; [destruct j; discriminate|]. cbn [rfind_owner].
  destruct j as [|j].
  - injection E as ->. replace (base b <=? base b + off)%N with true by (symmetry; apply N.leb_le; lia). cbn [andb]. rewrite Nat.add_0_r. replace (base b + off - base b)%N with off by lia.
    destruct (N.ltb_spec off (N.of_nat bs * size)) as [T|T].
    + replace (base b + off <? base b + N.of_nat bs * size)%N with true by (symmetry; apply N.ltb_lt; lia). destruct (off mod size =? 0)%N; reflexivity.
    + replace (base b + off <? base b + N.of_nat bs * size)%N with false by (symmetry; apply N.ltb_ge; lia). apply (rfind_owner_none l _ HS). intros d Hd. apply In_nth_error in Hd. destruct Hd as (k & Hd). exact (H (S k) d ltac:(lia) Hd).
  - destruct (N.leb_spec (base c) (base b + off)); destruct (N.ltb_spec (base b + off) (base c + N.of_nat bs * size)); cbn [andb].
    1: exfalso; destruct (H 0 c ltac:(lia) eq_refl); lia.
    all: rewrite (IH (i + 1) j E HO) by (intros k d Hk Hd; exact (H (S k) d ltac:(lia) Hd)); replace (i + 1 + j) with (i + S j) by lia; reflexivity.
Qed.
End Owner.

(** The entry index of an entry in a pool whose entries are wider than sizeof(T): another entry's, none, or undefined; never its own, but for the first of a block. *)
Theorem C127_over_aligned_refuted : forall (A : Type) size stride bs (p : @pool A) l i e, 0 < bs -> (0 < size < stride)%N -> reached stride bs p l -> disjoint stride p -> i < length l -> i mod bs <> 0 ->
  rRetrieveFromIndex stride p i = Done e ->
  rRetrieveEntryIndex size p e =
    (if N.of_nat (i mod bs) * stride <? N.of_nat bs * size
     then if (N.of_nat (i mod bs) * stride) mod size =? 0 then Done (Some (i / bs * bs + N.to_nat (N.of_nat (i mod bs) * stride / size))%nat) else Fault FUB
     else Done None)%N /\
  rRetrieveEntryIndex size p e <> Done (Some i).
Proof.
  intros A size stride bs p l i e HB HS HR HD Hi Hm E. destruct (reached_rep stride bs HB p l HR) as (ss & R & <-). pose proof R as (HBp & H).
  destruct (nth_error (concat ss) i) as [x|] eqn:Ni; [|apply nth_error_None in Ni; lia]. destruct (rows_split bs ss i x HB (rep_rows bs p ss R) Ni) as (s & Es & _).
  destruct (Forall2_nth _ _ _ _ _ H Es) as (b & Eb & _). unfold rRetrieveFromIndex, split_index in E. rewrite HBp in E. replace (bs =? 0) with false in E by lia. cbn [negb require bind] in E.
  unfold rGetAllocatedPointer in E. rewrite (vget_some _ _ _ Eb) in E. cbn [bind] in E. injection E as <-. unfold address.
  pose proof (Nat.mod_upper_bound i bs ltac:(lia)) as Hb. set (off := (N.of_nat (i mod bs) * stride)%N).
  assert (Q : rRetrieveEntryIndex size p (base b + off) = (if off <? N.of_nat bs * size then if off mod size =? 0 then Done (Some (i / bs * bs + N.to_nat (off / size))%nat) else Fault FUB else Done None)%N).
  { unfold rRetrieveEntryIndex. rewrite HBp. apply (rfind_owner_at size stride bs (m_blocks p) 0 (i / bs) b off); [lia | exact Eb | apply N.mul_lt_mono_pos_r; lia |].
    intros k c Hk Ec. rewrite <- HBp. assert (O : (off < N.of_nat (m_blockSize p) * stride)%N) by (rewrite HBp; apply N.mul_lt_mono_pos_r; lia).
    assert (T : k < i / bs \/ i / bs < k) by lia. destruct T as [T|T]; [pose proof (HD _ _ _ _ T Ec Eb) as V | pose proof (HD _ _ _ _ T Eb Ec) as V]; lia. }
  rewrite Q. split; [reflexivity|]. destruct (off <? N.of_nat bs * size)%N; [|discriminate]. destruct (off mod size =? 0)%N eqn:M; [|discriminate]. apply N.eqb_eq in M. intros F. injection F as F.
  pose proof (Nat.div_mod_eq i bs) as D. assert (G : N.to_nat (off / size) = i mod bs) by lia. assert (G' : (off / size = N.of_nat (i mod bs))%N) by lia.
  pose proof (N.div_mod' off size) as DM. rewrite M, G' in DM. unfold off in DM. assert (Z : (0 < N.of_nat (i mod bs))%N) by lia. rewrite N.add_0_r, N.mul_comm in DM. apply N.mul_cancel_r in DM; lia.
Qed.
Print Assumptions C127_over_aligned_refuted.

(** After Reset, an allocation the blocks have room for is undefined. *)
Theorem C127_reset_refuted : forall (A : Type) stride bs (p : @pool A) l at_, 2 <= bs -> reached stride bs p l -> sp_settled l = true -> 0 < sp_count l ->
  exists p1 n p2 ptrs, rReset p = Done p1 /\ n < GetBlockCount p * bs /\ rpool_run stride p1 (repeat (PDefer at_) n) = Done (p2, ptrs) /\ GetBlockCount p2 = GetBlockCount p /\
    forall at', rAllocate_defer stride p2 at' = Fault FUB.
Proof.
  intros A stride bs p l at_ HB HR HS HC. destruct (reached_rep stride bs ltac:(lia) p l HR) as (ss & R & <-).
  destruct (reset_starves stride bs p ss at_ HB R HS HC) as (p1 & n & p2 & ptrs & E1 & E2 & E3 & E4 & B2 & F2 & _). exists p1, n, p2, ptrs. split; [exact (kp_Reset p _ E1)|]. split; [exact E2|].
  split; [exact (kp_run stride _ p1 _ E3)|]. split; [exact E4|]. intros at'. unfold rAllocate_defer. rewrite B2.
  assert (G : forall (l : list (@pblock A)) i, find_room bs l i = Fault FAssert -> rfind_room bs l i = Fault FUB).
  { clear. induction l as [|b l IH]; intros i E; cbn [find_room rfind_room] in *; [discriminate|]. destruct (occupiedEntryCount b =? bs); [now apply IH|]. destruct (FindFirst 64 (freeEntries b)); [discriminate | reflexivity]. }
  now rewrite (G _ _ F2).
Qed.
Print Assumptions C127_reset_refuted.

(** Blocks of one entry can be cleared; Reset leaves such a pool unable to allocate. With entries of 16 bytes for objects of 8, the index of entry 1 is that of entry 2. *)
Example C127_nonvacuous : exists p0 p r p1 p2, pool_new 1 0 = Done p0 /\ rpool_run 8 p0 [PAlloc 7 0; PAlloc 8 64; PFree 0; PClear; PAlloc 9 0] = Done (p, r) /\ object p 0 = Done (Some 9) /\
  rReset p = Done p1 /\ rAllocate_defer 8 p1 0 = Fault FUB /\
  (q0 <- pool_new 4 0 ;; rpool_run 16 q0 [PAlloc 1 0; PAlloc 2 0; PAlloc 3 0]) = Done p2 /\ rRetrieveFromIndex 16 (fst p2) 1 = Done 16%N /\ rRetrieveEntryIndex 8 (fst p2) 16 = Done (Some 2) /\
  rRetrieveFromIndex 16 (fst p2) 3 = Done 48%N /\ rFree 16 (fst p2) 3 = Fault FUB.
Proof. do 5 eexists. do 3 (split; [vm_compute; reflexivity|]). do 2 (split; [vm_compute; reflexivity|]). split; [vm_compute; reflexivity|]. vm_compute. auto. Qed.
