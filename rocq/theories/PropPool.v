(** Properties C40-C46: MemoryPool. *)
From Verif Require Import CellProofs BitsetSpec BitsetBits BitsetProofs BitsetFind VectorCopy PoolModel PoolProofs PoolHistory PoolReset.
Open Scope nat_scope.

(** [p] is a pool of block size [bs] after some history of Allocate, Free, Clear (and of the user constructing and destroying deferred entries)
    that turns the slots of a new pool into [l]. *)
Definition reached {A} stride bs (p : @pool A) (l : list (slot A)) : Prop :=
  exists at0 p0 ops rs ptrs, pool_new bs at0 = Done p0 /\ pool_run stride p0 ops = Done (p, ptrs) /\ sp_run bs (repeat Vacant bs) ops = Done (l, rs).
(** The object of an entry. *)
Definition object {A} (p : @pool A) (i : nat) : outcome (option A) := b <- vget (m_blocks p) (i / m_blockSize p) ;; read (memory b) (i mod m_blockSize p).
(** The blocks of the pool do not overlap (what operator new guarantees). *)
Definition disjoint {A} (stride : N) (p : @pool A) : Prop := forall i j b c, i < j -> nth_error (m_blocks p) i = Some b -> nth_error (m_blocks p) j = Some c ->
  (base b + N.of_nat (m_blockSize p) * stride <= base c \/ base c + N.of_nat (m_blockSize p) * stride <= base b)%N.

Section Facts.
Context {A : Type}.
Variables (stride : N) (bs : nat).
Hypothesis bs_pos : 0 < bs.

Lemma clear_cases (o : pop A) n c : (is_clear o = false \/ 2 <= n \/ c = 0) \/ (is_clear o = true /\ ~ 2 <= n /\ c <> 0).
Proof. destruct (is_clear o); [|auto]. destruct (le_dec 2 n); [auto|]. destruct (Nat.eq_dec c 0); auto. Qed.

Lemma step_sound (p : @pool A) ss o l r p' r' : rep bs p ss -> sp_apply bs (concat ss) o = Done (l, r) -> pool_apply stride p o = Done (p', r') ->
  exists ss', rep bs p' ss' /\ concat ss' = l /\ r' = option_map (fun i => (i, place bs stride (bases p') i)) r /\ (is_clear o = true \/ exists ext, bases p' = bases p ++ ext).
Proof.
  intros R ES EP. destruct (clear_cases o bs (sp_count (concat ss))) as [C|(C1 & C2 & C3)].
  - destruct (pool_step stride bs bs_pos p ss o l r R ES C) as (p1 & ss1 & E1 & R1 & C1 & B1). rewrite EP in E1. injection E1 as -> ->. eauto.
  - exfalso. destruct o; try discriminate. cbn [sp_apply pool_apply] in *. destruct (sp_settled (concat ss)) eqn:S; [|discriminate]. pose proof R as (_ & H).
    unfold Clear, Reset in EP. rewrite (reset_blocks_one bs bs_pos _ _ ltac:(lia) H S C3) in EP. discriminate.
Qed.

Lemma run_sound ops : forall (p : @pool A) ss l rs p' ptrs, rep bs p ss -> sp_run bs (concat ss) ops = Done (l, rs) -> pool_run stride p ops = Done (p', ptrs) ->
  exists ss', rep bs p' ss' /\ concat ss' = l /\ (In PClear ops \/ exists ext, bases p' = bases p ++ ext).
Proof.
  induction ops as [|o ops IH]; intros p ss l rs p' ptrs R ES EP; cbn [sp_run pool_run] in *.
  - injection ES as <- <-. injection EP as <- <-. exists ss. repeat split; try apply R. right. exists []. now rewrite app_nil_r.
  - destruct (sp_apply bs (concat ss) o) as [[l1 r]|] eqn:E1; [|discriminate]. cbn [bind] in ES. destruct (sp_run bs l1 ops) as [[l2 rs2]|] eqn:E2; [|discriminate]. injection ES as <- <-.
    destruct (pool_apply stride p o) as [[p1 r1]|] eqn:P1; [|discriminate]. cbn [bind] in EP. destruct (pool_run stride p1 ops) as [[p2 ptrs2]|] eqn:P2; [|discriminate]. injection EP as <- <-.
    destruct (step_sound p ss o l1 r p1 r1 R E1 P1) as (ss1 & R1 & C1 & _ & B1). rewrite <- C1 in E2. destruct (IH p1 ss1 l2 rs2 p2 ptrs2 R1 E2 P2) as (ss2 & R2 & C2 & B2).
    exists ss2. repeat split; try apply R2; auto. destruct B1 as [B1|(e1 & B1)]; [left; left; destruct o; try discriminate; reflexivity|]. destruct B2 as [B2|(e2 & B2)]; [left; now right|].
    right. exists (e1 ++ e2). now rewrite B2, B1, app_assoc.
Qed.

Lemma reached_rep (p : @pool A) l : reached stride bs p l -> exists ss, rep bs p ss /\ concat ss = l.
Proof.
  intros (at0 & p0 & ops & rs & ptrs & EN & EP & ES). destruct (@pool_new_rep A bs at0) as (p1 & E1 & R1 & _). rewrite EN in E1. injection E1 as <-.
  assert (C : concat [repeat (@Vacant A) bs] = repeat Vacant bs) by (cbn; apply app_nil_r). rewrite <- C in ES. destruct (run_sound ops p0 _ l rs p ptrs R1 ES EP) as (ss & R & C' & _). eauto.
Qed.

Lemma object_rep (p : @pool A) ss i a : rep bs p ss -> nth_error (concat ss) i = Some (Live a) -> object p i = Done (Some a).
Proof.
  intros R E. pose proof R as (HB & H). destruct (rows_split bs ss i _ bs_pos (rep_rows bs p ss R) E) as (s & Es & Ex). destruct (Forall2_nth _ _ _ _ _ H Es) as (b & Eb & (HL & HC & HM & _)).
  unfold object. rewrite HB, (vget_some _ _ _ Eb). cbn [bind]. unfold read. rewrite HM, (map_nth_error _ _ _ Ex). reflexivity.
Qed.
Lemma apart_rep (p : @pool A) ss : rep bs p ss -> disjoint stride p -> apart stride bs (bases p).
Proof.
  intros (HB & _) HD i j a c Hij Ei Ej. unfold bases in *. rewrite nth_error_map in Ei, Ej. destruct (nth_error (m_blocks p) i) as [b|] eqn:Eb; [|discriminate]. destruct (nth_error (m_blocks p) j) as [d|] eqn:Ed; [|discriminate].
  injection Ei as <-. injection Ej as <-. rewrite <- HB. exact (HD i j b d Hij Eb Ed).
Qed.
End Facts.

(** *** C40 *)
(** Every history the slots allow is accepted by the pool, which hands out the same indices. *)
Theorem C40_history : forall (A : Type) stride bs at0 (ops : list (pop A)) l rs, 0 < bs -> 2 <= bs \/ ~ In PClear ops -> sp_run bs (repeat Vacant bs) ops = Done (l, rs) ->
  exists p0 p ptrs, pool_new bs at0 = Done p0 /\ pool_run stride p0 ops = Done (p, ptrs) /\ map (option_map fst) ptrs = rs /\ reached stride bs p l.
Proof.
  intros A stride bs at0 ops l rs HB HC ES. destruct (@pool_new_rep A bs at0) as (p0 & E0 & R0 & _).
  assert (C : concat [repeat (@Vacant A) bs] = repeat Vacant bs) by (cbn; apply app_nil_r). pose proof ES as ES'. rewrite <- C in ES.
  destruct (pool_history stride bs HB ops p0 _ l rs R0 ES HC) as (p & ss & ptrs & EP & R & Cs & M & _). exists p0, p, ptrs. repeat split; auto. exists at0, p0, ops, rs, ptrs. auto.
Qed.
Print Assumptions C40_history.
(** Allocate succeeds in every reachable pool. Its entry was not allocated, every allocated entry keeps its address, which differs from the new one,
    and a block is added exactly when every entry is used. *)
Theorem C40_fresh : forall (A : Type) stride bs (p : @pool A) l at_, 0 < bs -> reached stride bs p l ->
  exists p' i e, Allocate_defer stride p at_ = Done (p', i, e) /\ RetrieveFromIndex stride p i = Fault FAssert /\ RetrieveFromIndex stride p' i = Done e /\
    GetBlockCount p' = GetBlockCount p + (if GetFreeEntryCount p =? 0 then 1 else 0) /\
    forall k q, RetrieveFromIndex stride p k = Done q -> RetrieveFromIndex stride p' k = Done q /\ k <> i /\ (disjoint stride p' -> (0 < stride)%N -> q <> e).
Proof.
  intros A stride bs p l at_ HB HR. destruct (reached_rep stride bs HB p l HR) as (ss & R & <-). pose proof (Allocate_defer_rep bs stride HB p ss at_ R) as D. unfold sp_take in D.
  assert (X : exists i, match first_vacant (concat ss) with Some i => (upd (concat ss) i Deferred, i) | None => (concat ss ++ Deferred :: repeat Vacant (bs - 1), length (concat ss)) end =
     (match first_vacant (concat ss) with Some i => upd (concat ss) i Deferred | None => concat ss ++ Deferred :: repeat Vacant (bs - 1) end, i)) by (destruct (first_vacant (concat ss)); eauto).
  destruct X as (i & X). rewrite X in D. destruct D as (p' & ss' & E & R' & C & B & N'). exists p', i, (place bs stride (bases p') i). split; [exact E|].
  assert (NV : nth_error (concat ss) i = None \/ nth_error (concat ss) i = Some Vacant).
  { destruct (first_vacant (concat ss)) as [i0|] eqn:F; injection X as <-; [right; now apply (first_vacant_some bs) | left; apply nth_error_None; lia]. }
  split; [rewrite (Retrieve_rep bs stride HB p ss i R); destruct NV as [-> | ->]; reflexivity|].
  split; [rewrite (Retrieve_rep bs stride HB p' ss' i R'), N'; reflexivity|]. split.
  - unfold GetFreeEntryCount, GetBlockCount. rewrite (allocated_rep bs HB p ss R). pose proof R as (HBp & _). rewrite HBp. rewrite (rep_len bs p ss R), <- (rows_length bs ss (rep_rows bs p ss R)).
    pose proof (count_full (concat ss)) as CF. pose proof (count_le (concat ss)) as CL. assert (LB : length (bases p') = length (bases p) + length (if length ss * bs <=? i then [at_] else [])) by (rewrite B; apply app_length).
    unfold bases in LB. rewrite !map_length in LB. rewrite LB, (rep_len bs p ss R). rewrite <- (rows_length bs ss (rep_rows bs p ss R)).
    destruct (first_vacant (concat ss)) as [i0|] eqn:F; injection X as <-.
    + apply Nat.eqb_neq in CF. destruct (first_vacant_some bs _ _ F) as (H1 & _). replace (length (concat ss) <=? i0) with false by lia. replace (length (concat ss) - sp_count (concat ss) =? 0) with false by lia. reflexivity.
    + apply Nat.eqb_eq in CF. rewrite Nat.leb_refl, CF, Nat.sub_diag. reflexivity.
  - intros k q EQ. rewrite (Retrieve_rep bs stride HB p ss k R) in EQ. destruct (nth_error (concat ss) k) as [x|] eqn:Nk; [|discriminate]. destruct (held x) eqn:Hx; [|discriminate]. injection EQ as <-.
    assert (KI : k <> i) by (intros ->; destruct NV as [NV|NV]; rewrite Nk in NV; [discriminate | injection NV as ->; discriminate]).
    assert (KL : k < length (concat ss)) by (apply nth_error_Some; congruence).
    assert (NK' : nth_error (concat ss') k = Some x).
    { rewrite C. destruct (first_vacant (concat ss)) as [i0|]; injection X as <-; [rewrite nth_error_upd; now replace (k =? i0) with false by lia | now rewrite nth_error_app1]. }
    assert (PK : place bs stride (bases p') k = place bs stride (bases p) k).
    { unfold place. rewrite B. f_equal. apply app_nth1. unfold bases. rewrite map_length, (rep_len bs p ss R). apply Nat.div_lt_upper_bound; [lia|]. rewrite (rows_length bs ss (rep_rows bs p ss R)) in KL. lia. }
    split; [rewrite (Retrieve_rep bs stride HB p' ss' k R'), NK', Hx, PK; reflexivity|]. split; [exact KI|].
    intros HD HS EQ. rewrite <- PK in EQ. apply KI. pose proof (apart_rep stride bs p' ss' R' HD) as HA.
    assert (KL' : k < length (concat ss')) by (apply nth_error_Some; congruence). assert (IL' : i < length (concat ss')) by (apply nth_error_Some; congruence).
    pose proof (entry_index stride stride bs HB p' ss' k R' HA HS eq_refl KL') as E1. pose proof (entry_index stride stride bs HB p' ss' i R' HA HS eq_refl IL') as E2. rewrite EQ, E2 in E1. congruence.
Qed.
Print Assumptions C40_fresh.
(** *** C41 *)
Theorem C41_counters : forall (A : Type) stride bs (p : @pool A) l, 0 < bs -> reached stride bs p l ->
  GetAllocatedEntryCount p = length (filter held l) /\ GetFreeEntryCount p = GetBlockCount p * bs - length (filter held l) /\ GetBlockCount p * bs = length l /\ length (filter held l) <= length l.
Proof.
  intros A stride bs p l HB HR. destruct (reached_rep stride bs HB p l HR) as (ss & R & <-). pose proof R as (HBp & _).
  unfold GetFreeEntryCount. rewrite (allocated_rep bs HB p ss R), HBp. unfold GetBlockCount. rewrite (rep_len bs p ss R), (rows_length bs ss (rep_rows bs p ss R)). repeat split.
  rewrite <- (rows_length bs ss (rep_rows bs p ss R)). apply count_le.
Qed.
Print Assumptions C41_counters.
(** Allocate takes the lowest free index. *)
Theorem C41_lowest : forall (A : Type) stride bs (p : @pool A) l a at_ p' i e, 0 < bs -> reached stride bs p l ->
  Allocate stride p a at_ = Done (p', i, e) -> i <= length l /\ forall k, k < i -> exists q, RetrieveFromIndex stride p k = Done q.
Proof.
  intros A stride bs p l a at_ p' i e HB HR E. destruct (reached_rep stride bs HB p l HR) as (ss & R & <-). pose proof (Allocate_rep bs stride HB p ss a at_ R) as D. unfold sp_take in D.
  destruct (first_vacant (concat ss)) as [i0|] eqn:F; destruct D as (p1 & ss1 & E1 & _); rewrite E in E1; injection E1 as _ -> _.
  - destruct (first_vacant_some bs _ _ F) as (H1 & _ & H3). split; [lia|]. intros k Hk. destruct (H3 k Hk) as (x & Nx & Hx). rewrite (Retrieve_rep bs stride HB p ss k R), Nx, Hx. eauto.
  - split; [lia|]. intros k Hk. rewrite (Retrieve_rep bs stride HB p ss k R). destruct (nth_error (concat ss) k) as [x|] eqn:Nx; [|apply nth_error_None in Nx; lia].
    assert (Hx : held x = true); [|rewrite Hx; eauto]. destruct (held x) eqn:Hx; [reflexivity|]. exfalso. clear - F Nx Hx. revert k F Nx. induction (concat ss) as [|y r IH]; intros [|k] F Nx; try discriminate; cbn [first_vacant nth_error] in *.
    + injection Nx as ->. unfold held in Hx. destruct (vacant x); discriminate.
    + destruct (vacant y); [discriminate|]. destruct (first_vacant r); [discriminate|]. exact (IH k eq_refl Nx).
Qed.
Print Assumptions C41_lowest.
(** A freed entry is available again: freeing i makes exactly i unallocated. *)
Theorem C41_reuse : forall (A : Type) stride bs (p : @pool A) l i a, 0 < bs -> reached stride bs p l -> nth_error l i = Some (Live a) ->
  exists p', Free stride p i = Done p' /\ RetrieveFromIndex stride p' i = Fault FAssert /\ GetAllocatedEntryCount p' + 1 = GetAllocatedEntryCount p /\ GetBlockCount p' = GetBlockCount p /\
    (forall k, k <> i -> RetrieveFromIndex stride p' k = RetrieveFromIndex stride p k) /\
    forall b at_ p'' j e, Allocate stride p' b at_ = Done (p'', j, e) -> j <= i /\ GetBlockCount p'' = GetBlockCount p.
Proof.
  intros A stride bs p l i a HB HR E. destruct (reached_rep stride bs HB p l HR) as (ss & R & <-). destruct (Free_rep bs stride HB p ss i a R E) as (p' & ss' & EF & R' & C' & B'). exists p'. split; [exact EF|].
  assert (HI : i < length (concat ss)) by (apply nth_error_Some; congruence).
  assert (N' : nth_error (concat ss') i = Some Vacant) by (rewrite C', nth_error_upd, Nat.eqb_refl; now replace (i <? length (concat ss)) with true by lia).
  split; [now rewrite (Retrieve_rep bs stride HB p' ss' i R'), N'|]. split; [rewrite (allocated_rep bs HB p ss R), (allocated_rep bs HB p' ss' R'), C'; pose proof (count_upd bs (concat ss) i (Live a) Vacant E) as CU; cbn in CU; lia|].
  assert (BC : GetBlockCount p' = GetBlockCount p) by (unfold GetBlockCount; rewrite <- (map_length base (m_blocks p')), <- (map_length base (m_blocks p)); f_equal; exact B'). split; [exact BC|]. split.
  - intros k Hk. rewrite (Retrieve_rep bs stride HB p' ss' k R'), (Retrieve_rep bs stride HB p ss k R), C', B', nth_error_upd. now replace (k =? i) with false by lia.
  - intros b at_ p'' j e EA. pose proof (Allocate_rep bs stride HB p' ss' b at_ R') as D. unfold sp_take in D.
    assert (F : exists i0, first_vacant (concat ss') = Some i0 /\ i0 <= i).
    { clear - N'. revert i N'. induction (concat ss') as [|y r IH]; intros [|i] N'; try discriminate; cbn [first_vacant nth_error] in *; [injection N' as ->; exists 0; auto|]. destruct (vacant y); [exists 0; split; [reflexivity | lia]|].
      destruct (IH i N') as (i0 & -> & H). exists (S i0). split; [reflexivity | lia]. }
    destruct F as (i0 & F & Hi0). rewrite F in D. destruct D as (p1 & ss1 & E1 & R1 & C1 & B1). rewrite EA in E1. injection E1 as <- -> ->. split; [exact Hi0|]. rewrite <- BC.
    unfold GetBlockCount. rewrite <- (map_length base (m_blocks p'')), <- (map_length base (m_blocks p')). f_equal. fold (bases p'') (bases p'). rewrite B1.
    destruct (first_vacant_some bs _ _ F) as (H1 & _). rewrite (rows_length bs ss' (rep_rows bs p' ss' R')) in H1. replace (length ss' * bs <=? i0) with false by lia. apply app_nil_r.
Qed.
Print Assumptions C41_reuse.
Definition pool_ops : list (pop nat) := [PAlloc 10 0; PAlloc 11 0; PAlloc 12 50; PFree 1; PDefer 0; PConstruct 1 21; PAlloc 13 0; PAlloc 14 100; PDestroy 0; PFreeNoDestruction 0].
Example C40_case : sp_run 2 (repeat Vacant 2) pool_ops =
  Done ([Vacant; Live 21; Live 12; Live 13; Live 14; Vacant], [Some 0; Some 1; Some 2; None; Some 1; None; Some 3; Some 4; None; None]).
Proof. reflexivity. Qed.
Example C40_case_run : exists p0 p r, pool_new 2 0 = Done p0 /\ pool_run 8 p0 pool_ops = Done (p, r) /\ GetBlockCount p = 3 /\ GetAllocatedEntryCount p = 4 /\ object p 3 = Done (Some 13) /\ pool_iterate 8 p = Done [(1, 8%N); (2, 50%N); (3, 58%N); (4, 100%N)].
Proof. do 3 eexists. split; [vm_compute; reflexivity|]. split; [vm_compute; reflexivity|]. vm_compute. auto. Qed.

(** *** C42 *)
(** Indices and addresses of allocated entries correspond, in both directions. *)
Theorem C42_correspondence : forall (A : Type) size bs (p : @pool A) l i x, 0 < bs -> (0 < size)%N -> reached size bs p l -> disjoint size p -> nth_error l i = Some x -> held x = true ->
  exists e, RetrieveFromIndex size p i = Done e /\ RetrieveEntryIndex size size p e = Done (Some i) /\ (forall a, x = Live a -> object p i = Done (Some a)).
Proof.
  intros A size bs p l i x HB HS HR HD E Hx. destruct (reached_rep size bs HB p l HR) as (ss & R & <-). exists (place bs size (bases p) i).
  rewrite (Retrieve_rep bs size HB p ss i R), E, Hx. split; [reflexivity|]. split.
  - apply (entry_index size size bs HB p ss i R (apart_rep size bs p ss R HD) HS eq_refl). apply nth_error_Some. congruence.
  - intros a ->. exact (object_rep bs HB p ss i a R E).
Qed.
Print Assumptions C42_correspondence.
(** An index that is not allocated is refused. *)
Theorem C42_unallocated : forall (A : Type) stride bs (p : @pool A) l i, 0 < bs -> reached stride bs p l -> (forall x, nth_error l i = Some x -> x = Vacant) ->
  RetrieveFromIndex stride p i = Fault FAssert /\ Free stride p i = Fault FAssert.
Proof.
  intros A stride bs p l i HB HR HV. destruct (reached_rep stride bs HB p l HR) as (ss & R & <-).
  assert (N : nth_error (concat ss) i = None \/ nth_error (concat ss) i = Some Vacant) by (destruct (nth_error (concat ss) i) as [x|]; [right; now rewrite (HV x eq_refl) | now left]).
  split; [rewrite (Retrieve_rep bs stride HB p ss i R); destruct N as [-> | ->]; reflexivity | exact (Free_refused bs stride HB p ss i R N)].
Qed.
Print Assumptions C42_unallocated.
(** An address stays the one of its index through any further history that does not free it. *)
Theorem C42_stable : forall (A : Type) stride bs (p : @pool A) l ops l' rs p' ptrs i e, 0 < bs -> reached stride bs p l -> ~ In PClear ops ->
  sp_run bs l ops = Done (l', rs) -> pool_run stride p ops = Done (p', ptrs) -> RetrieveFromIndex stride p i = Done e ->
  forall e', RetrieveFromIndex stride p' i = Done e' -> e' = e.
Proof.
  intros A stride bs p l ops l' rs p' ptrs i e HB HR HC ES EP E e' E'. destruct (reached_rep stride bs HB p l HR) as (ss & R & <-).
  destruct (run_sound stride bs HB ops p ss l' rs p' ptrs R ES EP) as (ss' & R' & C' & [I|(ext & B)]); [contradiction|].
  rewrite (Retrieve_rep bs stride HB p ss i R) in E. rewrite (Retrieve_rep bs stride HB p' ss' i R') in E'. destruct (nth_error (concat ss) i) as [x|] eqn:N; [|discriminate]. destruct (held x); [|discriminate].
  destruct (nth_error (concat ss') i) as [x'|]; [|discriminate]. destruct (held x'); [|discriminate]. injection E as <-. injection E' as <-.
  unfold place. rewrite B. f_equal. apply app_nth1. unfold bases. rewrite map_length, (rep_len bs p ss R). assert (i < length (concat ss)) by (apply nth_error_Some; congruence). rewrite (rows_length bs ss (rep_rows bs p ss R)) in H.
  apply Nat.div_lt_upper_bound; lia.
Qed.
Print Assumptions C42_stable.
Example C42_case : exists p, reached 8 2 p [Vacant; Live 21; Live 12; Live 13; Live 14; Vacant] /\ RetrieveFromIndex 8 p 3 = Done 58%N /\ RetrieveEntryIndex 8 8 p 58 = Done (Some 3).
Proof.
  destruct (C40_history nat 8 2 0 pool_ops _ _ ltac:(lia) ltac:(left; lia) C40_case) as (p0 & p & ptrs & E0 & EP & _ & R). exists p. split; [exact R|].
  vm_compute in E0. injection E0 as <-. vm_compute in EP. injection EP as <- _. vm_compute. auto.
Qed.

(** *** C43 *)
(** When the alignment makes entries wider than sizeof(T), only the first entry of a block is found. *)
Theorem C43_first_entry_partial : forall (A : Type) size stride bs (p : @pool A) l i x, 0 < bs -> (0 < size <= stride)%N -> reached stride bs p l -> disjoint stride p -> nth_error l i = Some x -> held x = true -> i mod bs = 0 ->
  exists e, RetrieveFromIndex stride p i = Done e /\ RetrieveEntryIndex size stride p e = Done (Some i).
Proof.
  intros A size stride bs p l i x HB HS HR HD E Hx Hm. destruct (reached_rep stride bs HB p l HR) as (ss & R & <-). exists (place bs stride (bases p) i).
  rewrite (Retrieve_rep bs stride HB p ss i R), E, Hx. split; [reflexivity|]. assert (Hi : i < length (concat ss)) by (apply nth_error_Some; congruence).
  destruct (owner_rep size stride bs HB p ss i R (apart_rep stride bs p ss R HD) ltac:(lia) Hi) as (b & rest & _ & _ & P & ->). rewrite P, Hm. change (N.of_nat 0 * stride)%N with 0%N. rewrite N.add_0_r. cbn [find_owner].
  rewrite N.leb_refl. replace (base b <? base b + N.of_nat bs * size)%N with true by (symmetry; apply N.ltb_lt; assert (0 < N.of_nat bs * size)%N by (apply N.mul_pos_pos; lia); lia). cbn [andb].
  rewrite N.sub_diag, N.mod_0_l, N.div_0_l by lia. cbn [N.eqb require bind N.to_nat]. unfold address. cbn [N.of_nat N.mul]. rewrite N.add_0_r, N.eqb_refl. cbn [assert bind]. do 2 f_equal. pose proof (Nat.div_mod_eq i bs). lia.
Qed.
Print Assumptions C43_first_entry_partial.
Theorem C43_over_aligned_refuted : forall (A : Type) size stride bs (p : @pool A) l i x e r, 0 < bs -> (0 < size < stride)%N -> reached stride bs p l -> disjoint stride p -> nth_error l i = Some x ->
  i mod bs <> 0 -> RetrieveFromIndex stride p i = Done e -> RetrieveEntryIndex size stride p e = Done r -> r = None.
Proof.
  intros A size stride bs p l i x e r HB HS HR HD E Hm EI ER. destruct (reached_rep stride bs HB p l HR) as (ss & R & <-). rewrite (Retrieve_rep bs stride HB p ss i R), E in EI. destruct (held x); [|discriminate]. injection EI as <-.
  apply (entry_index_wrong size stride bs HB p ss i r R (apart_rep stride bs p ss R HD) HS); auto. apply nth_error_Some. congruence.
Qed.
Print Assumptions C43_over_aligned_refuted.
Example C43_case : exists p0 p r, pool_new 4 0 = Done p0 /\ pool_run 16 p0 [PAlloc 1 0; PAlloc 2 0; PAlloc 3 0] = Done (p, r) /\ RetrieveFromIndex 16 p 1 = Done 16%N /\ RetrieveEntryIndex 4 16 p 16 = Done None /\
  RetrieveEntryIndex 8 16 p 16 = Fault FAssert.
Proof. do 3 eexists. split; [vm_compute; reflexivity|]. split; [vm_compute; reflexivity|]. vm_compute. auto. Qed.

(** *** C44 *)
Theorem C44_iteration : forall (A : Type) stride bs (p : @pool A) l, 0 < bs -> reached stride bs p l ->
  exists r, pool_iterate stride p = Done r /\ map fst r = filter (fun i => held (nth i l Vacant)) (seq 0 (length l)) /\ forall i e, In (i, e) r -> RetrieveFromIndex stride p i = Done e.
Proof.
  intros A stride bs p l HB HR. destruct (reached_rep stride bs HB p l HR) as (ss & R & <-). eexists. split; [exact (iterate_rep stride bs HB p ss R)|]. split.
  - rewrite map_map. cbn [fst]. apply map_id.
  - intros i e HI. apply in_map_iff in HI. destruct HI as (k & EK & HI). injection EK as -> <-. apply filter_In in HI. destruct HI as (HI & Hh). apply in_seq in HI.
    rewrite (Retrieve_rep bs stride HB p ss i R). destruct (nth_error (concat ss) i) as [x|] eqn:N; [|apply nth_error_None in N; lia]. rewrite (nth_error_nth _ _ _ N) in Hh. now rewrite Hh.
Qed.
Print Assumptions C44_iteration.

Example C44_case : exists p, reached 8 2 p [Vacant; Live 21; Live 12; Live 13; Live 14; Vacant] /\ pool_iterate 8 p = Done [(1, 8%N); (2, 50%N); (3, 58%N); (4, 100%N)].
Proof.
  destruct (C40_history nat 8 2 0 pool_ops _ _ ltac:(lia) ltac:(left; lia) C40_case) as (p0 & p & ptrs & E0 & EP & _ & R). exists p. split; [exact R|].
  vm_compute in E0. injection E0 as <-. vm_compute in EP. injection EP as <- _. vm_compute. auto.
Qed.

(** *** C45 *)
(** Reset destroys every object exactly once and brings the counters to zero. *)
Theorem C45_destroys_partial : forall (A : Type) stride bs (p : @pool A) l, 2 <= bs -> reached stride bs p l -> sp_settled l = true ->
  exists p', Reset p = Done p' /\ Forall (fun b => memory b = repeat Raw bs) (m_blocks p') /\ GetAllocatedEntryCount p' = 0 /\ GetBlockCount p' = GetBlockCount p /\ pool_iterate stride p' = Done [].
Proof.
  intros A stride bs p l HB HR HS. destruct (reached_rep stride bs ltac:(lia) p l HR) as (ss & (HBp & H) & <-). destruct (reset_blocks_rep bs (Nat.lt_le_trans _ _ _ Nat.lt_0_2 HB) _ _ H HS (or_introl HB)) as (l' & E & W & L).
  unfold Reset. rewrite E. cbn [bind]. eexists. split; [reflexivity|]. cbn [m_blocks]. split; [exact (wiped_raw bs _ _ _ W)|].
  assert (Z : Forall (fun b => occupiedEntryCount b = 0) l') by (clear - W; induction W as [|[b s] b' x y (_ & V & _) W IH]; constructor; assumption). split; [|split; [exact L|]].
  - unfold GetAllocatedEntryCount. cbn [m_blocks]. clear - Z. induction Z as [|b r Hb Z IH]; [reflexivity|]. cbn [fold_left]. now rewrite Hb.
  - unfold pool_iterate, GetFirstAllocatedEntryFromBlock. cbn [m_blocks m_blockSize skipn]. assert (F : forall i, first_allocated l' i = Done None) by (clear - Z; induction Z as [|b r Hb Z IH]; intros i; [reflexivity|]; cbn [first_allocated]; rewrite Hb; apply IH).
    rewrite F. cbn [bind]. destruct (length l' * m_blockSize p); reflexivity.
Qed.
Print Assumptions C45_destroys_partial.
(** But the capacity is not restored: of the blocks*blockSize allocations it should serve, one asserts. *)
Theorem C45_capacity_refuted : forall (A : Type) stride bs (p : @pool A) l at_, 2 <= bs -> reached stride bs p l -> sp_settled l = true -> 0 < sp_count l ->
  exists p1 n p2 ptrs, Reset p = Done p1 /\ n < GetBlockCount p * bs /\ pool_run stride p1 (repeat (PDefer at_) n) = Done (p2, ptrs) /\ GetBlockCount p2 = GetBlockCount p /\
    forall at', Allocate_defer stride p2 at' = Fault FAssert.
Proof. intros A stride bs p l at_ HB HR HS HC. destruct (reached_rep stride bs ltac:(lia) p l HR) as (ss & R & <-). destruct (reset_starves stride bs p ss at_ HB R HS HC) as (p1 & n & p2 & ptrs & E1 & E2 & E3 & E4 & _ & _ & E5). exists p1, n, p2, ptrs. auto. Qed.
Print Assumptions C45_capacity_refuted.
(** And once something is allocated again, iteration visits destroyed entries and Clear destroys them a second time. *)
Theorem C45_stale_entries_refuted : exists p0 p1 p2 p3 r1 r2, pool_new 4 0 = Done p0 /\ pool_run 8 p0 [PAlloc 1 0; PAlloc 2 0; PAlloc 3 0] = Done (p1, r1) /\ Reset p1 = Done p2 /\
  pool_run 8 p2 [PAlloc 9 0] = Done (p3, r2) /\ GetAllocatedEntryCount p3 = 1 /\ pool_iterate 8 p3 = Done [(1, 8%N); (2, 16%N); (3, 24%N)] /\ Clear p3 = Fault FUB /\ pool_destroy p3 = Fault FUB.
Proof. do 6 eexists. split; [vm_compute; reflexivity|]. split; [vm_compute; reflexivity|]. split; [vm_compute; reflexivity|]. split; [vm_compute; reflexivity|]. vm_compute. auto. Qed.
Print Assumptions C45_stale_entries_refuted.

(** *** C46 *)
(** Free destroys exactly that object. *)
Theorem C46_free : forall (A : Type) stride bs (p : @pool A) l i a, 0 < bs -> reached stride bs p l -> nth_error l i = Some (Live a) ->
  exists p', Free stride p i = Done p' /\ concat (map memory (m_blocks p')) = upd (concat (map memory (m_blocks p))) i Raw /\ nth_error (concat (map memory (m_blocks p))) i = Some (Obj (Some a)).
Proof.
  intros A stride bs p l i a HB HR E. destruct (reached_rep stride bs HB p l HR) as (ss & R & <-). destruct (Free_rep bs stride HB p ss i a R E) as (p' & ss' & EF & R' & C' & _). exists p'. split; [exact EF|].
  assert (M : forall q tt, rep bs q tt -> concat (map memory (m_blocks q)) = map (@cell_of A) (concat tt)).
  { intros q tt (_ & H). induction H as [|b s lb tt (_ & _ & HM & _) H IH]; [reflexivity|]. cbn [map concat]. rewrite map_app, IH, HM. reflexivity. }
  rewrite (M _ _ R), (M _ _ R'), C', map_upd. split; [reflexivity|]. now rewrite (map_nth_error _ _ _ E).
Qed.
Print Assumptions C46_free.
(** Clear and the destructor destroy the remaining ones, each once: no live object is left, and nothing else was destroyed. *)
Theorem C46_clear_partial : forall (A : Type) stride bs (p : @pool A) l, 2 <= bs -> reached stride bs p l -> sp_settled l = true ->
  exists dropped, Clear p = Done (MP bs [], dropped) /\ pool_destroy p = Done dropped /\ Forall (fun b => memory b = repeat Raw bs) dropped /\ length dropped = GetBlockCount p.
Proof. intros A stride bs p l HB HR HS. destruct (reached_rep stride bs ltac:(lia) p l HR) as (ss & R & <-). exact (Clear_rep bs ltac:(lia) p ss R HS (or_introl HB)). Qed.
Print Assumptions C46_clear_partial.
(** With a block size of one, Clear and the destructor assert as soon as something is allocated. *)
Theorem C46_block_of_one_refuted : forall (A : Type) stride (p : @pool A) l, reached stride 1 p l -> sp_settled l = true -> 0 < sp_count l -> Clear p = Fault FAssert /\ pool_destroy p = Fault FAssert.
Proof.
  intros A stride p l HR HS HC. destruct (reached_rep stride 1 ltac:(lia) p l HR) as (ss & (_ & H) & <-).
  unfold Clear, pool_destroy, Reset. rewrite (reset_blocks_one 1 ltac:(lia) _ _ eq_refl H HS ltac:(lia)). split; reflexivity.
Qed.
Print Assumptions C46_block_of_one_refuted.
(** NoDestruction never touches the memory, whatever the index. *)
Theorem C46_no_destruction : forall (A : Type) (p p' : @pool A) i, Free_nodestruction p i = Done p' -> map memory (m_blocks p') = map memory (m_blocks p).
Proof.
  intros A p p' i E. unfold Free_nodestruction, split_index, release in E. destruct (negb (m_blockSize p =? 0)); [|discriminate]. cbn [require bind] in E.
  destruct (vget (m_blocks p) (i / m_blockSize p)) as [b|] eqn:Eb; [|discriminate]. cbn [bind] in E. destruct (0 <? occupiedEntryCount b); [|discriminate]. cbn [assert bind] in E.
  destruct (Set_ 64 (freeEntries b) (i mod m_blockSize p) true) as [f|]; [|discriminate]. cbn [bind] in E. destruct (ResetBit 64 (occupiedEntries b) (i mod m_blockSize p)) as [o|]; [|discriminate]. cbn [bind] in E.
  unfold vget in Eb. destruct (nth_error (m_blocks p) (i / m_blockSize p)) as [c|] eqn:N; [|discriminate]. injection Eb as ->. rewrite vset_done in E by (apply nth_error_Some; congruence). injection E as <-. cbn [m_blocks].
  rewrite map_upd. cbn [memory]. apply upd_id. now apply map_nth_error.
Qed.
Print Assumptions C46_no_destruction.
(** But it does not check that the entry was allocated: the counters go wrong and a later Allocate asserts though entries are free. *)
Theorem C46_no_destruction_unchecked_refuted : exists p0 p1 p2 r, pool_new 2 0 = Done p0 /\ pool_run 8 p0 [PAlloc 1 0; PAlloc 2 0] = Done (p1, r) /\
  pool_run 8 p1 [PDestroy 0; PFreeNoDestruction 0; PFreeNoDestruction 0] = Done (p2, [None; None; None]) /\ GetAllocatedEntryCount p2 = 0 /\ pool_iterate 8 p2 = Done [] /\
  pool_run 8 p2 [PAlloc 1 0; PAlloc 1 0] = Fault FAssert.
Proof. do 4 eexists. split; [vm_compute; reflexivity|]. split; [vm_compute; reflexivity|]. split; [vm_compute; reflexivity|]. vm_compute. auto. Qed.
Print Assumptions C46_no_destruction_unchecked_refuted.
(** Move construction: the new pool has the entries, their objects and addresses; the source is a pool without blocks, whose destruction releases nothing
    and which can be used again. *)
Theorem C46_moved : forall (A : Type) stride bs (p : @pool A) l, 0 < bs -> reached stride bs p l ->
  let (q, s) := pool_move p in reached stride bs q l /\ GetAllocatedEntryCount s = 0 /\ GetBlockCount s = 0 /\ GetFreeEntryCount s = 0 /\ pool_iterate stride s = Done [] /\ pool_destroy s = Done [] /\
  forall at_, AllocateBlock s at_ = pool_new bs at_.
Proof.
  intros A stride bs p l HB HR. cbn [pool_move]. split; [exact HR|]. destruct (reached_rep stride bs HB p l HR) as (ss & (E & _) & _). rewrite E. repeat split; reflexivity.
Qed.
Print Assumptions C46_moved.
(** Move assignment drops the target's blocks with their live objects. *)
Theorem C46_move_assign_refuted : forall (A : Type) stride bs (p q : @pool A) l i a, 0 < bs -> reached stride bs p l -> nth_error l i = Some (Live a) ->
  In (Obj (Some a)) (concat (map memory (snd (pool_move_assign p q)))).
Proof.
  intros A stride bs p q l i a HB HR E. destruct (reached_rep stride bs HB p l HR) as (ss & (_ & H) & <-). cbn [pool_move_assign snd].
  assert (M : concat (map memory (m_blocks p)) = map (@cell_of A) (concat ss)) by (clear - H; induction H as [|b s lb tt (_ & _ & HM & _) H IH]; [reflexivity|]; cbn [map concat]; now rewrite map_app, IH, HM).
  rewrite M. apply in_map_iff. exists (Live a). split; [reflexivity | exact (nth_error_In _ _ E)].
Qed.
Print Assumptions C46_move_assign_refuted.
Example C46_case : (exists p, reached 8 4 p [Live 1; Live 2; Live 3; Vacant]) /\ (exists p, reached 8 1 p [Live 1; Vacant]) /\ sp_settled [Live 1; Live 2; Live 3; Vacant] = true /\ sp_settled [Live 1; Vacant] = true /\ 0 < sp_count [Live 1; Vacant].
Proof.
  split.
  - destruct (C40_history nat 8 4 0 [PAlloc 1 0; PAlloc 2 0; PAlloc 3 0] [Live 1; Live 2; Live 3; Vacant] [Some 0; Some 1; Some 2] ltac:(lia) ltac:(left; lia) eq_refl) as (p0 & p & ptrs & _ & _ & _ & R). now exists p.
  - split; [|cbn; repeat split; lia]. destruct (C40_history nat 8 1 0 [PAlloc 1 0; PAlloc 2 8; PFree 1] [Live 1; Vacant] [Some 0; Some 1; None] ltac:(lia) ltac:(right; intros [H|[H|[H|[]]]]; discriminate) eq_refl) as (p0 & p & ptrs & _ & _ & _ & R). now exists p.
Qed.
