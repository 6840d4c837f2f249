(** Property C137: MemoryPool whose entries use the pool. *)
From Verif Require Import Base CellProofs BitsetSpec BitsetBits BitsetProofs BitsetFind VectorCopy PoolModel PoolProofs PoolHistory PoolReset PropPool VisitProofs PoolReenterModel PoolReenterSpec PoolReenter PoolReenterSim.
Open Scope nat_scope.

(** C137: Allocate and Free called by constructors and destructors of entries, however deep, do to the pool what they do to the slots. *)
Theorem C137_nested : forall (A : Type) stride bs ctor dtor depth cs (p : @pool A) l l', 0 < bs -> reached stride bs p l -> sp_exec bs ctor dtor depth cs l = Done l' ->
  exists p', exec stride ctor dtor depth cs p = Done p' /\ reached stride bs p' l'.
Proof. intros A stride bs ctor dtor depth cs p l l' B R E. exact (exec_reached stride bs ctor dtor B depth cs p l l' R E). Qed.
Print Assumptions C137_nested.

(** C137: freeing an entry that holds nothing asserts; freeing one that is being constructed or destroyed is undefined. *)
Theorem C137_misuse : forall (A : Type) stride bs ctor dtor rec (p : @pool A) l i, 0 < bs -> reached stride bs p l ->
  (nth_error l i = Some Deferred -> exec_one stride ctor dtor rec (CFree i) p = Fault FUB) /\
  (nth_error l i = Some Vacant \/ nth_error l i = None -> exec_one stride ctor dtor rec (CFree i) p = Fault FAssert).
Proof. intros A stride bs ctor dtor rec p l i B R. pose proof (one_fault stride bs ctor dtor B p l i R) as H. split; [intros N|intros [N|N]]; rewrite N in H; apply H. Qed.
Print Assumptions C137_misuse.

(** C137: with constructors and destructors that do not call the pool these are Allocate and Free. *)
Theorem C137_plain : forall (A : Type) stride bs (ctor dtor : A -> list (call A)) depth (p : @pool A) l, 0 < bs -> reached stride bs p l -> (forall a, ctor a = []) -> (forall a, dtor a = []) ->
  (forall i, exec stride ctor dtor (S (S depth)) [CFree i] p = Free stride p i) /\ (forall a at_, exec stride ctor dtor (S (S depth)) [CAlloc a at_] p = ' (p, _, _) <- Allocate stride p a at_ ;; Done p).
Proof.
  intros A stride bs ctor dtor depth p l B R HC HD. split.
  - intros i. cbn [exec each]. pose proof (one_fault stride bs ctor dtor B p l i R) as OF. pose proof (free_fault stride bs B p l i R) as FF. destruct (nth_error l i) as [[| |a]|] eqn:N; [now rewrite OF, FF..| |now rewrite OF, FF].
    unfold Free. cbn [exec_one]. destruct (split_index p i) as [(k, j)|]; [|reflexivity]. cbn [bind]. destruct (GetAllocatedPointer stride p k j); [|reflexivity]. cbn [bind]. rewrite (object_reached stride bs B p l i a R N). cbn [bind]. unfold user_destroy. destruct (on_cell p i destroy) as [p1|]; [|reflexivity]. cbn [bind]. rewrite HD. cbn [exec each bind]. destruct (release p1 k j); reflexivity.
  - intros a at_. cbn [exec each exec_one]. unfold Allocate. destruct (Allocate_defer stride p at_) as [((p1, i), e)|]; [|reflexivity]. cbn [bind]. rewrite HC. cbn [exec each bind]. destruct (user_construct p1 i a); reflexivity.
Qed.
Print Assumptions C137_plain.

(** C137: freeing an entry whose destructor frees others, whose destructors free others, ... each of them once: all of them are freed, and nothing else. *)
Theorem C137_tree : forall (A : Type) stride bs ctor dtor (p : @pool A) l i T, 0 < bs -> reached stride bs p l -> tree dtor l i T -> NoDup T ->
  exists d, forall depth, d <= depth -> exists p' l', exec stride ctor dtor depth [CFree i] p = Done p' /\ reached stride bs p' l' /\ vacated l T l'.
Proof.
  intros A stride bs ctor dtor p l i T B R t ND. destruct (free_tree bs ctor dtor l i T t ND) as (d & H). exists d. intros depth Hd. destruct (H depth Hd) as (l' & E & V). destruct (C137_nested A stride bs ctor dtor depth _ p l l' B R E) as (p' & E' & R'). exists p', l'. auto.
Qed.
Print Assumptions C137_tree.

(** C137: Clear and the destructor, when every entry belongs to one tree and owners come before what they own: every object is destroyed once and no block is left with an object. *)
Theorem C137_clear_partial : forall (A : Type) stride bs ctor dtor (p : @pool A) l F, 2 <= bs -> reached stride bs p l -> sp_settled l = true -> forest dtor l F -> upward dtor l ->
  exists d, forall depth fuel, d <= depth -> length (m_blocks p) <= fuel ->
  exists dropped, reenter_clear stride ctor dtor fuel depth p = Done (MP bs [], dropped) /\ reenter_destroy stride ctor dtor fuel depth p = Done dropped /\ Forall (fun b => memory b = repeat Raw bs) dropped /\ length dropped = length (m_blocks p).
Proof.
  intros A stride bs ctor dtor p l F two R S FO UP. destruct (reset_forest bs ctor dtor (length l) l F 0 FO UP) as (d & H).
  - intros j _. lia.
  - reflexivity.
  - intros j _ X. unfold sp_settled in S. rewrite forallb_forall in S. apply nth_error_In in X. now specialize (S _ X).
  - exists d. intros depth fuel Hd Hf. destruct (H depth Hd) as (l' & E & _). apply (clear_sim stride bs ctor dtor ltac:(lia) two depth fuel p l l' R); auto.
    exact (forest_freeing dtor l F FO).
Qed.
Print Assumptions C137_clear_partial.

(** The objects of the examples name the entries they free, and the destructor of [Spawn] allocates. *)
Inductive thing := Owner (owned : list nat) | Spawn.
Definition no_calls (a : thing) : list (call thing) := [].
Definition on_destruction (a : thing) : list (call thing) := match a with Owner owned => map CFree owned | Spawn => [CAlloc (Owner []) 900] end.
Definition grown bs ops : outcome (@pool thing * list (slot thing)) :=
  p <- pool_new bs 100 ;; ' (p, _) <- pool_run 8 p ops ;; ' (l, _) <- sp_run bs (repeat (@Vacant thing) bs) ops ;; Done (p, l).
Lemma reach bs ops p l : grown bs ops = Done (p, l) -> reached 8 bs p l.
Proof.
  unfold grown. destruct (pool_new bs 100) as [p0|] eqn:E0; [|discriminate]. cbn [bind]. destruct (pool_run 8 p0 ops) as [(p1, ptrs)|] eqn:E1; [|discriminate]. cbn [bind]. destruct (sp_run bs (repeat Vacant bs) ops) as [(l1, rs)|] eqn:E2; [|discriminate]. cbn [bind].
  intros E. injection E as <- <-. exists 100%N, p0, ops, rs, ptrs. auto.
Qed.

(** C137: an owner after what it owns, in the same block or in a later one: Clear and the destructor destroy an object twice, or free an entry that is not marked any more. *)
Theorem C137_clear_refuted :
  (exists (p : @pool thing) l F, reached 8 4 p l /\ sp_settled l = true /\ forest on_destruction l F /\
    reenter_clear 8 no_calls on_destruction 4 4 p = Fault FUB /\ reenter_destroy 8 no_calls on_destruction 4 4 p = Fault FUB) /\
  (exists (p : @pool thing) l F, reached 8 2 p l /\ sp_settled l = true /\ forest on_destruction l F /\
    reenter_clear 8 no_calls on_destruction 4 4 p = Fault FAssert).
Proof.
  split.
  - eexists _, _, [(1, [1; 0])]. split; [apply (reach 4 [PAlloc (Owner []) 1; PAlloc (Owner [0]) 2]); vm_compute; reflexivity|]. split; [reflexivity|]. split.
    + split; [|split; [repeat constructor; cbn; lia|]].
      * constructor; [|constructor]. apply (Node _ _ 1 (Owner [0]) [0]); [reflexivity..|]. apply (Trees_cons _ _ 0 [] [0] []); [|constructor]. apply (Node _ _ 0 (Owner []) []); [reflexivity..|constructor].
      * intros [|[|[|[|j]]]] a H; try discriminate; cbn; auto. destruct j; discriminate.
    + split; vm_compute; reflexivity.
  - eexists _, _, [(1, [1]); (2, [2; 0])]. split; [apply (reach 2 [PAlloc (Owner []) 1; PAlloc (Owner []) 2; PAlloc (Owner [0]) 200]); vm_compute; reflexivity|]. split; [reflexivity|]. split.
    + split; [|split; [repeat constructor; cbn; lia|]].
      * constructor; [apply (Node _ _ 1 (Owner []) []); [reflexivity..|constructor]|]. constructor; [|constructor]. apply (Node _ _ 2 (Owner [0]) [0]); [reflexivity..|]. apply (Trees_cons _ _ 0 [] [0] []); [|constructor]. apply (Node _ _ 0 (Owner []) []); [reflexivity..|constructor].
      * intros [|[|[|[|j]]]] a H; try discriminate; cbn; auto. destruct j; discriminate.
    + vm_compute; reflexivity.
Qed.
Print Assumptions C137_clear_refuted.

(** C137: a destructor that allocates during Clear: the new object may land where Clear does not look again and is never destroyed; if it needs a block, the reference of the loop dangles. *)
Theorem C137_clear_allocating_refuted :
  (exists (p : @pool thing) l, reached 8 4 p l /\ sp_settled l = true /\
    exists dropped b, reenter_clear 8 no_calls on_destruction 4 4 p = Done (MP 4 [], dropped) /\ nth_error dropped 0 = Some b /\ nth_error (memory b) 0 = Some (Obj (Some (Owner [])))) /\
  (exists (p : @pool thing) l, reached 8 2 p l /\ sp_settled l = true /\ reenter_clear 8 no_calls on_destruction 4 4 p = Fault FUB).
Proof.
  split.
  - eexists _, _. split; [apply (reach 4 [PAlloc (Owner []) 1; PAlloc Spawn 2; PFree 0]); vm_compute; reflexivity|]. split; [reflexivity|]. eexists _, _. split; [|split].
    + vm_compute; reflexivity.
    + reflexivity.
    + reflexivity.
  - eexists _, _. split; [apply (reach 2 [PAlloc (Owner []) 1; PAlloc Spawn 2]); vm_compute; reflexivity|]. split; [reflexivity|]. vm_compute. reflexivity.
Qed.
Print Assumptions C137_clear_allocating_refuted.

(** Non-vacuity: a tree of four over two blocks, freed from its root and cleared. *)
Definition family : list (pop thing) := [PAlloc (Owner [1; 2]) 1; PAlloc (Owner [3]) 1; PAlloc (Owner []) 200; PAlloc (Owner []) 1].
Lemma family_tree : tree on_destruction [Live (Owner [1; 2]); Live (Owner [3]); Live (Owner []); Live (Owner [])] 0 [0; 1; 3; 2].
Proof.
  apply (Node _ _ 0 (Owner [1; 2]) [1; 2]); [reflexivity..|]. apply (Trees_cons _ _ 1 [2] [1; 3] [2]).
  - apply (Node _ _ 1 (Owner [3]) [3]); [reflexivity..|]. apply (Trees_cons _ _ 3 [] [3] []); [|constructor]. apply (Node _ _ 3 (Owner []) []); [reflexivity..|constructor].
  - apply (Trees_cons _ _ 2 [] [2] []); [|constructor]. apply (Node _ _ 2 (Owner []) []); [reflexivity..|constructor].
Qed.
Example C137_case : exists p, reached 8 2 p [Live (Owner [1; 2]); Live (Owner [3]); Live (Owner []); Live (Owner [])] /\
  (exists p', exec 8 no_calls on_destruction 5 [CFree 0] p = Done p' /\ GetAllocatedEntryCount p' = 0) /\
  (exists dropped, reenter_clear 8 no_calls on_destruction 2 5 p = Done (MP 2 [], dropped) /\ map (fun b => memory b) dropped = [[Raw; Raw]; [Raw; Raw]]).
Proof. eexists. split; [apply (reach 2 family); vm_compute; reflexivity|]. split; eexists; (split; [vm_compute; reflexivity|reflexivity]). Qed.
Example C137_hypotheses : forest on_destruction [Live (Owner [1; 2]); Live (Owner [3]); Live (Owner []); Live (Owner [])] [(0, [0; 1; 3; 2])] /\ upward on_destruction [Live (Owner [1; 2]); Live (Owner [3]); Live (Owner []); Live (Owner [])].
Proof.
  split; [split; [constructor; [exact family_tree|constructor]|split; [repeat constructor; cbn; lia|]]|].
  - intros [|[|[|[|[|j]]]]] a H; try discriminate; cbn; auto.
  - intros [|[|[|[|[|j]]]]] a k H HI; try discriminate; injection H as <-; cbn in HI; intuition (try discriminate); match goal with H : CFree _ = CFree _ |- _ => injection H as <-; lia end.
Qed.
