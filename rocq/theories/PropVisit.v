(** Properties C134, C135: loops over a MemoryPool or the bits of a Bitset whose body changes what they go over. *)
From Coq Require Import Sorted.
From Verif Require Import CellModel BitsetSpec BitsetBits BitsetProofs BitsetFind PoolSpec PoolModel PoolProofs PoolHistory BitsetHistory VisitModel VisitSpec VisitProofs PropPool PropBitset.
Open Scope nat_scope.

(** *** C134 *)
(** A loop goes to the least entry after the current one that is allocated by then. It visits each entry at most once, in increasing order, and every entry that is allocated all along. *)
Theorem C134_visits_partial : forall (A : Type) stride bs (p : @pool A) l beh fuel l' seen, 0 < bs -> reached stride bs p l -> 2 <= bs \/ (forall tr, ~ In PClear (beh tr)) ->
  sp_visit bs beh fuel l 0 [] = Done (l', seen) ->
  exists p', pool_visit stride beh fuel p = Done (p', seen) /\ reached stride bs p' l' /\ StronglySorted lt seen /\
    forall i, held (nth i l Vacant) = true -> (forall tr, Forall (spares i) (beh tr)) -> In i seen /\ held (nth i l' Vacant) = true.
Proof.
  intros A stride bs p l beh fuel l' seen HB R C E. pose proof (visit_refines stride bs HB beh C fuel p l 0 [] R) as V. rewrite E in V. destruct V as (p' & V & R'). exists p'. unfold pool_visit. rewrite (reached_first stride bs HB p l R). split; [exact V|]. split; [exact R'|].
  split; [destruct (visit_increases bs HB beh C fuel _ _ _ _ _ E) as (new & -> & S & _); exact S|]. intros i H S. exact (visit_covers bs HB beh C fuel i S _ _ _ _ _ E (Nat.le_0_l i) H).
Qed.
(** Bodies that do not allocate: the loop ends, after at most as many visits as the pool has entries, unless the body breaks the contract of the pool. *)
Theorem C134_ends_partial : forall (A : Type) stride bs (p : @pool A) l beh, 0 < bs -> reached stride bs p l -> 2 <= bs \/ (forall tr, ~ In PClear (beh tr)) ->
  (forall tr, Forall (fun o => allocates o = false) (beh tr)) -> (forall f, f <> FDiverge -> sp_visit bs beh (length l) l 0 [] <> Fault f) ->
  exists p' l' seen, pool_visit stride beh (length l) p = Done (p', seen) /\ reached stride bs p' l'.
Proof.
  intros A stride bs p l beh HB R C N K. destruct (sp_visit bs beh (length l) l 0 []) as [[l' seen]|f] eqn:E.
  - destruct (C134_visits_partial A stride bs p l beh _ l' seen HB R C E) as (p' & V & R' & _). eauto.
  - exfalso. assert (f = FDiverge) as ->. { destruct f; try reflexivity; exfalso; (eapply K; [|reflexivity]); discriminate. } exact (visit_ends bs HB beh C N (length l) l 0 [] ltac:(lia) E).
Qed.
(** A loop that frees each entry it visits frees them all. *)
Theorem C134_free_all : forall (A : Type) stride bs (p : @pool A) l, 0 < bs -> reached stride bs p l -> sp_settled l = true ->
  exists p', pool_visit stride freeing (length l) p = Done (p', sp_indices l) /\ reached stride bs p' (repeat Vacant (length l)) /\ GetAllocatedEntryCount p' = 0 /\ pool_iterate stride p' = Done [].
Proof.
  intros A stride bs p l HB R S. pose proof (@free_all A bs (length l) l 0 [] ltac:(lia) S ltac:(lia)) as E. rewrite Nat.sub_0_r in E.
  assert (C : 2 <= bs \/ (forall tr, ~ In PClear (@freeing A tr))) by (right; intros tr [K|[]]; discriminate K).
  destruct (C134_visits_partial A stride bs p l freeing (length l) _ _ HB R C E) as (p' & V & R' & _). exists p'. split; [exact V|]. split; [exact R'|].
  assert (NV : forall n, filter held (repeat (@Vacant A) n) = []) by (induction n; [reflexivity|assumption]).
  split.
  - destruct (C41_counters A stride bs p' _ HB R') as (-> & _). unfold sp_count. now rewrite NV.
  - destruct (C44_iteration A stride bs p' _ HB R') as (r & -> & M & _). destruct r as [|[i e] r]; [reflexivity|]. exfalso. cbn [map fst] in M. rewrite repeat_length in M. assert (I : In i (filter (fun i => held (nth i (repeat (@Vacant A) (length l)) Vacant)) (seq 0 (length l)))) by (rewrite <- M; now left). apply filter_In in I. destruct I as (_ & I). rewrite nth_repeat in I. discriminate I.
Qed.
(** Bodies that allocate: the loop may never end. *)
Theorem C134_allocating_refuted : forall (A : Type) stride bs (p : @pool A) x xs m a at_, 0 < bs -> reached stride bs p (map Live (x :: xs) ++ repeat Vacant m) ->
  forall fuel, pool_visit stride (spawning a at_) fuel p = Fault FDiverge.
Proof.
  intros A stride bs p x xs m a at_ HB R fuel. assert (C : 2 <= bs \/ (forall tr, ~ In PClear (spawning a at_ tr))) by (right; intros tr [K|[]]; discriminate K).
  pose proof (visit_refines stride bs HB (spawning a at_) C fuel p _ 0 [] R) as V. rewrite spawn_diverges in V by (cbn; lia). unfold pool_visit. rewrite (reached_first stride bs HB p _ R). exact V.
Qed.
(** Clear in the body: the increment that follows fails an assertion. *)
Definition clearing {A} (seen : list nat) : list (pop A) := [PClear].
Theorem C134_clear_refuted : forall (A : Type) stride bs (p : @pool A) l fuel, 2 <= bs -> reached stride bs p l -> sp_settled l = true -> sp_count l <> 0 -> pool_visit stride clearing (S fuel) p = Fault FAssert.
Proof.
  intros A stride bs p l fuel HB R S H. assert (B : 0 < bs) by lia. unfold pool_visit. rewrite (reached_first stride bs B p l R). cbn [bind]. pose proof (first_from_spec (fun i => held (nth i l Vacant)) 0 (length l)) as F. fold (next_held l 0) in F. destruct (next_held l 0) as [q|].
  - destruct F as (Q & T & _). cbn [option_map split_at pool_visit_loop]. unfold split_at. destruct (reached_pointer stride bs B p l q R) as (e & ->); [lia|exact T|]. cbn [bind]. assert (E : sp_run bs l [PClear] = Done ([], [None])) by (cbn [sp_run sp_apply]; now rewrite S).
    destruct (reached_run stride bs B p l _ _ _ R (or_introl HB) E) as (p' & ptrs & EP & R'). unfold clearing at 1. rewrite EP. cbn [bind]. destruct (reached_rep stride bs B p' [] R') as (ss & (HS & F2) & CC). unfold GetNextAllocatedEntry. destruct (m_blocks p') as [|b bl]; [reflexivity|]. inversion F2 as [|b' s bl' ss' K K2]; subst. destruct K as (K & _). cbn [concat] in CC. destruct s; [cbn in K; lia|discriminate].
  - exfalso. apply H. unfold sp_count. assert (G : filter held l = []); [|now rewrite G]. clear - F. revert F. induction l as [|s l IH]; intros F; [reflexivity|]. cbn [filter]. rewrite (F 0 ltac:(cbn; lia) : held s = false). apply IH. intros j J. exact (F (Datatypes.S j) ltac:(cbn; lia)).
Qed.
Print Assumptions C134_visits_partial.
Print Assumptions C134_ends_partial.
Print Assumptions C134_free_all.
Print Assumptions C134_allocating_refuted.
Print Assumptions C134_clear_refuted.

(** Entries 0, 1, 2: visiting 0 frees 1 and 0, and allocates an object, which gets 0; 2 is visited next. *)
Definition swapping : list nat -> list (pop nat) := fun seen => match seen with [0] => [PFree 1; PFree 0; PAlloc 7 0%N] | _ => [] end.
Example C134_example : exists p p', reached 8 2 p [Live 1; Live 2; Live 3; Vacant] /\ pool_visit 8 swapping 4 p = Done (p', [0; 2]) /\ reached 8 2 p' [Live 7; Vacant; Live 3; Vacant].
Proof.
  destruct (C40_history nat 8 2 100 [PAlloc 1 0%N; PAlloc 2 0%N; PAlloc 3 200%N] [Live 1; Live 2; Live 3; Vacant] [Some 0; Some 1; Some 2] ltac:(lia) ltac:(left; lia) eq_refl) as (p0 & p & ptrs & E0 & EP & _ & R).
  destruct (C134_visits_partial nat 8 2 p _ swapping 4 [Live 7; Vacant; Live 3; Vacant] [0; 2] ltac:(lia) R (or_introl (le_n 2)) eq_refl) as (p' & V & R' & _). exists p, p'. auto.
Qed.

(** *** C135 *)
(** A loop over the bits of bitset [r] goes to the least set bit after the current one, as the bits are by then. *)
Theorem C135_visits_partial : forall w, width w -> forall r beh fuel st s, (forall s tr, wf_run w s (beh tr)) -> (forall k, repr w (st k) (s k)) ->
  match sb_visit w r beh fuel s 0 [] with
  | Done (s', seen) => exists st', bit_visit w r beh fuel st = Done (st', seen) /\ (forall k, repr w (st' k) (s' k)) /\ StronglySorted lt seen /\
      forall i, nth i (s r) false = true -> (forall s s' tr, spec_run w s (beh tr) = Some s' -> nth i (s r) false = true -> nth i (s' r) false = true) -> In i seen /\ nth i (s' r) false = true
  | Fault f => bit_visit w r beh fuel st = Fault f
  end.
Proof.
  intros w Hw r beh fuel st s WF R. pose proof (@bit_refines w Hw r beh WF fuel st s 0 [] R) as V. unfold bit_visit, iter_begin. rewrite (FindFirst_repr w _ _ (R r)). change (s_find (s r) 0) with (next_bit (s r) 0).
  destruct (sb_visit w r beh fuel s 0 []) as [[s' seen]|f] eqn:E; [|exact V]. destruct V as (st' & V & R'). exists st'. split; [exact V|]. split; [exact R'|]. split; [destruct (bits_increase r beh fuel _ _ _ _ _ E) as (new & -> & S & _); exact S|].
  intros i H S. exact (bits_cover r beh i S fuel _ _ _ _ _ E (Nat.le_0_l i) H).
Qed.
(** Bodies that do not make the bitset longer: the loop ends. *)
Theorem C135_ends_partial : forall w, width w -> forall r beh st s, (forall s tr, wf_run w s (beh tr)) -> (forall k, repr w (st k) (s k)) -> (forall s s' tr, spec_run w s (beh tr) = Some s' -> length (s' r) <= length (s r)) ->
  forall fuel, GetSize (st r) <= fuel -> bit_visit w r beh fuel st <> Fault FDiverge.
Proof.
  intros w Hw r beh st s WF R N fuel L E. pose proof (C135_visits_partial w Hw r beh fuel st s WF R) as V. pose proof (@bits_end w r beh N fuel s 0 []) as ND. destruct (R r) as (SZ & _). unfold GetSize in L. rewrite SZ in L. destruct (sb_visit w r beh fuel s 0 []) as [[s' seen]|f].
  - destruct V as (st' & V & _). congruence.
  - rewrite V in E. injection E as ->. apply ND; [lia|reflexivity].
Qed.
(** A loop that resets each bit it visits visits all of them and leaves none. *)
Definition resetting (r : nat) : list nat -> list op := fun seen => [OReset r (last seen 0)].
Lemma upd_false l q i : nth i (upd l q false) false = if i =? q then false else nth i l false.
Proof.
  destruct (Nat.lt_ge_cases i (length l)) as [LI|LI]; [|rewrite !nth_overflow by (rewrite ?upd_length; lia); now destruct (i =? q)]. destruct (nth_error (upd l q false) i) as [y|] eqn:Y; [|apply nth_error_None in Y; rewrite upd_length in Y; lia].
  rewrite (nth_error_nth _ _ _ Y). rewrite nth_error_upd in Y. destruct (Nat.eqb_spec i q) as [->|]; cbn [andb] in Y; [rewrite (proj2 (Nat.ltb_lt _ _) LI) in Y; now injection Y as <-|]. symmetry. exact (nth_error_nth _ _ _ Y).
Qed.
Lemma reset_all w r : forall fuel s from seen, length (s r) - from <= fuel -> (forall i, i < from -> nth i (s r) false = false) ->
  exists s', sb_visit w r (resetting r) fuel s from seen = Done (s', seen ++ filter (fun i => nth i (s r) false) (seq from (length (s r) - from))) /\ (forall i, nth i (s' r) false = false) /\ length (s' r) = length (s r) /\ forall k, k <> r -> s' k = s k.
Proof.
  assert (Z : forall (l : list bool) from, (forall i, i < from -> nth i l false = false) -> (forall j, from <= j < length l -> nth j l false = false) -> forall i, nth i l false = false).
  { intros l from H1 H2 i. destruct (Nat.lt_ge_cases i from); [auto|]. destruct (Nat.lt_ge_cases i (length l)); [auto|]. now apply nth_overflow. }
  induction fuel as [|fuel IH]; intros s from seen L H; cbn [sb_visit]; rewrite filter_first; pose proof (first_from_spec (fun i => nth i (s r) false) from (length (s r))) as F; destruct (first_from _ from _) as [q|].
  - lia.
  - exists s. rewrite app_nil_r. split; [reflexivity|]. split; [exact (Z _ from H F)|]. auto.
  - destruct F as (B & T & M). unfold resetting at 1. rewrite last_last. cbn [spec_run spec_step]. rewrite (proj2 (Nat.ltb_lt q (length (s r))) (proj2 B)). set (s1 := lput s r (s_set (s r) q false)). assert (E1 : s1 r = upd (s r) q false) by (unfold s1, lput, s_set; now rewrite Nat.eqb_refl).
    rewrite E1, upd_length, (proj2 (Nat.ltb_lt q (length (s r))) (proj2 B)). destruct (IH s1 (q + 1) (seen ++ [q])) as (s' & E & Z' & LE & O).
    + rewrite E1, upd_length. lia.
    + intros i I. rewrite E1, upd_false. destruct (Nat.eqb_spec i q); [reflexivity|]. destruct (Nat.lt_ge_cases i from); [auto|]. apply M. lia.
    + exists s'. rewrite E. split; [|split; [exact Z'|split; [rewrite LE, E1; apply upd_length|]]].
      * rewrite <- app_assoc. cbn [app]. rewrite E1, upd_length. do 4 f_equal. apply filter_ext_in. intros i I. apply in_seq in I. rewrite upd_false. destruct (Nat.eqb_spec i q); [lia|reflexivity].
      * intros k K. rewrite (O k K). unfold s1, lput. destruct (Nat.eqb_spec k r); [congruence|reflexivity].
  - exists s. rewrite app_nil_r. split; [reflexivity|]. split; [exact (Z _ from H F)|]. auto.
Qed.
Theorem C135_reset_all : forall w, width w -> forall r st s, (forall k, repr w (st k) (s k)) ->
  exists st', bit_visit w r (resetting r) (GetSize (st r)) st = Done (st', filter (fun i => nth i (s r) false) (seq 0 (length (s r)))) /\ GetSize (st' r) = GetSize (st r) /\ TestNone (st' r) = true /\ forall k, k <> r -> repr w (st' k) (s k).
Proof.
  intros w Hw r st s R. destruct (R r) as (SZ & _). unfold GetSize. rewrite SZ. pose proof (C135_visits_partial w Hw r (resetting r) (length (s r)) st s ltac:(intros s0 tr; cbn [resetting wf_run wf_op]; split; [exact Logic.I|]; destruct (spec_step w s0 _); exact Logic.I) R) as V. destruct (reset_all w r (length (s r)) s 0 [] ltac:(lia) ltac:(lia)) as (s' & E & Z & LE & O). rewrite E, Nat.sub_0_r in V. cbn [app] in V. destruct V as (st' & V & R' & _). exists st'. split; [exact V|].
  split; [rewrite (proj1 (R' r)); exact LE|]. split; [|intros k K; rewrite <- (O k K); apply R'].
  destruct (C07_queries w Hw (st' r) (s' r) (R' r)) as (_ & _ & _ & TN). now apply TN.
Qed.
(** A loop that sets the bit after the one it visits never ends. *)
Definition chasing (r : nat) : list nat -> list op := fun seen => [OUSet r (last seen 0 + 1) true].
Theorem C135_growing_refuted : forall w, width w -> forall r st s k, (forall k, repr w (st k) (s k)) -> nth k (s r) false = true -> forall fuel, bit_visit w r (chasing r) fuel st = Fault FDiverge.
Proof.
  intros w Hw r st s k R H fuel. pose proof (C135_visits_partial w Hw r (chasing r) fuel st s ltac:(intros s0 tr; cbn; auto) R) as V. enough (E : forall fuel s from seen k, from <= k -> nth k (s r) false = true -> sb_visit w r (chasing r) fuel s from seen = Fault FDiverge) by (rewrite (E fuel s 0 [] k (Nat.le_0_l k) H) in V; exact V).
  clear. induction fuel as [|fuel IH]; intros s from seen k L H; cbn [sb_visit]; pose proof (first_from_spec (fun i => nth i (s r) false) from (length (s r))) as F; destruct (first_from _ from _) as [q|].
  2,4: rewrite F in H; [discriminate|]; split; [exact L|]; destruct (Nat.lt_ge_cases k (length (s r))) as [|G]; [assumption|]; rewrite nth_overflow in H by exact G; discriminate.
  - reflexivity.
  - unfold chasing at 1. rewrite last_last. cbn [spec_run spec_step]. set (s1 := lput s r (s_uset (s r) (q + 1) true)). assert (N : nth_error (s1 r) (q + 1) = Some true).
    { unfold s1, lput, s_uset. rewrite Nat.eqb_refl. destruct F as (B & _). destruct (q + 1 <? length (s r)) eqn:LT; [now rewrite nth_error_upd, Nat.eqb_refl, LT|]. apply Nat.ltb_ge in LT. rewrite app_assoc, nth_error_app2; rewrite app_length, repeat_length; [|lia]. now replace (q + 1 - _) with 0 by lia. }
    assert (LN : q + 1 < length (s1 r)) by (apply nth_error_Some; congruence). replace (q <? length (s1 r)) with true by (symmetry; apply Nat.ltb_lt; lia). apply (IH _ _ _ (q + 1)); [lia|]. exact (nth_error_nth _ _ _ N).
Qed.
(** Clear in the body: the increment that follows fails an assertion. *)
Theorem C135_clear_refuted : forall w, width w -> forall r st s k, (forall k, repr w (st k) (s k)) -> nth k (s r) false = true -> forall fuel, bit_visit w r (fun _ => [OClear r]) (S fuel) st = Fault FAssert.
Proof.
  intros w Hw r st s k R H fuel. pose proof (C135_visits_partial w Hw r (fun _ => [OClear r]) (S fuel) st s ltac:(intros s0 tr; cbn; auto) R) as V. cbn [sb_visit] in V. pose proof (first_from_spec (fun i => nth i (s r) false) 0 (length (s r))) as F. destruct (first_from _ 0 _) as [q|].
  - cbn [spec_run spec_step] in V. unfold lput at 1 in V. rewrite Nat.eqb_refl in V. exact V.
  - rewrite F in H; [discriminate|]. split; [lia|]. destruct (Nat.lt_ge_cases k (length (s r))) as [|G]; [assumption|]; rewrite nth_overflow in H by exact G; discriminate.
Qed.
Print Assumptions C135_visits_partial.
Print Assumptions C135_ends_partial.
Print Assumptions C135_reset_all.
Print Assumptions C135_growing_refuted.
Print Assumptions C135_clear_refuted.

(** Bits 1, 4, 5 of 8: visiting 1 resets 4 and sets 0 and 6. *)
Definition toggling : list nat -> list op := fun seen => match seen with [1] => [OUReset 0 4; OUSet 0 0 true; OUSet 0 6 true] | _ => [] end.
Example C135_example : exists st', bit_visit 8 0 toggling 8 (fun _ => mkB [50%N] 8) = Done (st', [1; 5; 6]) /\ st' 0 = mkB [99%N] 8.
Proof. eexists. split; [vm_compute; reflexivity|]. vm_compute. reflexivity. Qed.
