(** Properties C47-C52: Signal, Connection, ConnectionGuard. *)
From Coq Require Import Permutation.
From Verif Require Import CellModel CellProofs VectorModel VectorProofs VectorHistory VectorCopy PoolProofs SignalSpec SignalModel SignalProofs SignalEmit SignalHistory SignalThrowModel SignalThrow SignalDestroyModel SignalDestroy.
Open Scope nat_scope.
Local Ltac crunch := repeat match goal with |- _ /\ _ => split end; (vm_compute; reflexivity).
(** Instantiates the next existential with the result of the first computation of the goal. *)
Local Ltac witness c := let r := eval vm_compute in c in match r with Done ?w => exists w end.

(** What any program reaches with less than 2^64 - 4 slots, callbacks doing what they like during emissions, throwing and destroying other signals included; moves of signals are restricted to
    [movable] ones (C52 shows what the others do). *)
Inductive reached : world -> Prop :=
| r_start n : reached (start n)
| r_act beh fuel a w w' : reached w -> act beh fuel w a = Done w' -> bounded w' -> reached w'
| r_throw beh fuel a w w' thrown : reached w -> tact beh fuel w a = Done (w', thrown) -> bounded w' -> reached w'
| r_destroying beh fuel s w w' : reached w -> (forall tr id, Forall nomove (beh tr id)) -> xemit beh fuel w s = Done w' -> bounded w' -> reached w'
| r_new w : reached w -> reached (sig_new w)
| r_destroy s w w' : reached w -> sig_destroy w s = Done w' -> reached w'
| r_move d s w w' : reached w -> d <> s -> movable w d s -> sig_move_assign w d s = Done w' -> reached w'.

Lemma destroy_lives w s w' : sig_destroy w s = Done w' -> lives w s.
Proof. unfold sig_destroy. intros H. apply bind_inv in H. destruct H as (x & E & _). exact (lives_at _ _ _ E). Qed.
Lemma move_lives w d s w' : sig_move_assign w d s = Done w' -> lives w d /\ lives w s.
Proof. unfold sig_move_assign. intros H. apply bind_inv in H. destruct H as (x & E & H). apply bind_inv in H. destruct H as (y & E2 & H). split; eapply lives_at; eassumption. Qed.
Lemma reached_keeps w : reached w -> keeps w /\ bounded w.
Proof.
  intros H. induction H as [n|beh fuel a w w' H (IK & IB) E HB|beh fuel a w w' x H (IK & IB) E HB|beh fuel s w w' H (IK & IB) N E HB|w H (IK & IB)|s w w' H (IK & IB) E|d s w w' H (IK & IB) D HM E].
  - split; [apply start_keeps | reflexivity].
  - split; [exact (act_keeps _ _ _ _ _ IK E HB) | exact HB].
  - split; [exact (tact_keeps _ _ _ _ _ _ IK E HB) | exact HB].
  - split; [exact (xemit_keeps _ _ _ _ _ N IK E HB) | exact HB].
  - split; [now apply new_keeps | exact IB].
  - destruct (destroy_keeps w s IK (destroy_lives _ _ _ E)) as (w1 & E1 & K1 & _ & HH & _). rewrite E in E1. injection E1 as <-. split; [exact K1 | unfold bounded; now rewrite HH].
  - destruct (move_lives _ _ _ _ E) as (LD & LS). destruct (move_keeps w d s IK LD LS D HM) as (w1 & E1 & K1 & _ & HH & _). rewrite E in E1. injection E1 as <-. split; [exact K1 | unfold bounded; now rewrite HH].
Qed.

Lemma reached_history beh fuel acts : forall w w', reached w -> history beh fuel w acts = Done w' -> bounded w' -> reached w'.
Proof.
  induction acts as [|a r IH]; intros w w' H E HB; unfold history in *; cbn [perform] in E; [now injection E as <-|]. apply bind_inv in E. destruct E as (w1 & E1 & E). assert (M : length (heap w1) <= length (heap w')) by (apply (perform_heap (emit beh fuel) r); [intros wa t wb K; exact (emit_heap _ _ _ _ _ K) | exact E]).
  apply (IH w1 w'); [|exact E | exact HB]. apply (r_act beh fuel a w w1 H); [destruct a; exact E1 | exact (bounded_le _ _ HB M)].
Qed.
Lemma slot_owner w id s t : reached w -> In id (connected (trace w) s) -> In id (connected (trace w) t) -> s = t.
Proof.
  intros H. destruct (reached_keeps w H) as (((S & R & G) & V) & _). assert (K : forall u, In id (connected (trace w) u) -> exists L P k, nth_error S u = Some (Some (L, P)) /\ nth_error L k = Some id).
  { intros u HI. destruct (nth_error (sigs w) u) as [[x|]|] eqn:E; [|rewrite V in HI; [destruct HI|]; intros (y & Y); congruence..]. destruct (proj1 (lives_rep w S u R) (ex_intro _ x E)) as (L & P & ES). apply (Permutation_in _ (Permutation_sym (G _ _ _ ES))) in HI. apply In_nth_error in HI. destruct HI as (k & HI). eauto. }
  intros A B. apply K in A. apply K in B. destruct A as (L & P & k & E1 & E2). destruct B as (L' & P' & k' & E3 & E4). destruct R as (_ & HI & _). pose proof (HI _ _ _ _ _ E1 E2) as X. rewrite (HI _ _ _ _ _ E3 E4) in X. congruence.
Qed.
Lemma spilled_two w s : reached w -> lives w s -> 2 <= length (connected (trace w) s) -> spilled w s.
Proof.
  intros H LV HN. destruct (reached_keeps w H) as (((S & R & G) & V) & _). destruct (proj1 (lives_rep w S s R) LV) as (L & P & ES). rewrite <- (Permutation_length (G _ _ _ ES)) in HN. destruct (rep_sig w S s L P R ES) as (x & _ & [(E & LE)|E] & _ & N); [rewrite map_length in LE; lia|]. exists x. split; [exact N | now rewrite E].
Qed.

(** *** C47 *)
Definition silent (beh : list event -> nat -> list action) : Prop := forall tr id, beh tr id = [].
Theorem C47_emission_calls_each_slot_once beh fuel w s : reached w -> lives w s -> silent beh -> length (connected (trace w) s) < fuel ->
  exists w' t, emit beh fuel w s = Done w' /\ trace w' = trace w ++ map ECall t /\ Permutation t (connected (trace w) s) /\ NoDup t.
Proof.
  intros H LV HB HF. destruct (reached_keeps w H) as (((S & G) & V) & BD). destruct (proj1 (lives_rep w S s (proj1 G)) LV) as (L & P & ES). pose proof (proj2 G _ _ _ ES) as PM. destruct (restart w S s L P G ES) as (w1 & E1 & G1 & HH & T1).
  assert (Hs : s < length S) by (apply nth_error_Some; congruence).
  destruct (quiet_loop beh s fuel w1 (upd S s (Some (L, 1))) L 1 G1 ltac:(unfold bounded; now rewrite HH)) as (w2 & S2 & E2 & _ & _ & _ & _ & T2).
  - rewrite nth_error_upd, Nat.eqb_refl. now replace (s <? length S) with true by lia.
  - lia.
  - intros tr id _. apply HB.
  - rewrite (Permutation_length PM). lia.
  - exists w2, L. unfold emit. rewrite E1. cbn [bind]. split; [exact E2|]. split; [rewrite T2, T1; reflexivity|]. split; [exact PM | exact (slots_nodup _ _ _ _ _ (proj1 (proj2 (proj1 G))) ES)].
Qed.
(** Connecting, disconnecting and clearing always succeed on signals that exist. *)
Theorem C47_actions_succeed beh fuel w a : reached w -> match a with ADisconnect _ => True | AConnect s | AClear s => lives w s | AEmit _ => False end -> exists w', act beh fuel w a = Done w'.
Proof.
  intros H HA. destruct (reached_keeps w H) as (((S & G) & V) & BD).
  assert (HV : valid S a) by (destruct a; cbn in *; try contradiction; [exact I | destruct (proj1 (lives_rep w S _ (proj1 G)) HA) as (L & P & ES); eauto | destruct (proj1 (lives_rep w S _ (proj1 G)) HA) as (L & P & ES); eauto]).
  destruct (step_ginv w S a G BD HV) as (w' & evs & S' & E & _). exists w'. destruct a; try exact E. contradiction.
Qed.
Print Assumptions C47_emission_calls_each_slot_once.
Print Assumptions C47_actions_succeed.

Definition quiet : list event -> nat -> list action := fun _ _ => [].
Example C47_example : exists w w', history quiet 9 (start 1) [AConnect 0; AConnect 0; AConnect 0; AConnect 0; ADisconnect 1] = Done w /\ connected (trace w) 0 = [0; 2; 3] /\ emit quiet 9 w 0 = Done w' /\ skipn (length (trace w)) (trace w') = [ECall 0; ECall 3; ECall 2].
Proof. eexists _, _. crunch. Qed.
Example C47_reached : exists w, reached w /\ lives w 0 /\ connected (trace w) 0 = [0; 2].
Proof.
  destruct (history quiet 0 (start 1) [AConnect 0; AConnect 0; AConnect 0; ADisconnect 1]) as [w|] eqn:E; [|vm_compute in E; discriminate].
  exists w. split; [apply (reached_history _ _ _ _ _ (r_start 1) E); vm_compute in E; injection E as <-; reflexivity|]. vm_compute in E. injection E as <-. split; [eexists; reflexivity | reflexivity].
Qed.

(** *** C48 *)
(** During the emission [t] of [s] after [t0]: no slot is called twice, the slots connected from beginning to end are called, and a slot is called only
    while it is connected. *)
Definition fair_emission (s : nat) (t0 t : list event) : Prop :=
  NoDup (calls t) /\ (forall id, In id (connected t0 s) -> ~ removed s t id -> In id (calls t)) /\ (forall t1 id t2, t = t1 ++ ECall id :: t2 -> In id (connected (t0 ++ t1) s)).

Theorem C48_disconnecting_callbacks beh fuel w s : reached w -> lives w s ->
  (forall tr id, Forall (fun a => match a with ADisconnect _ => True | AClear t => lives w t | _ => False end) (beh tr id)) -> length (connected (trace w) s) < fuel ->
  exists w' t, emit beh fuel w s = Done w' /\ reached w' /\ trace w' = trace w ++ t /\ fair_emission s (trace w) t.
Proof.
  intros H LV HB HF. destruct (reached_keeps w H) as (((S & G) & V) & BD). assert (AL : alive (lives w) S) by (intros t HT; destruct (proj1 (lives_rep w S t (proj1 G)) HT) as (L & P & ES); eauto).
  destruct (emit_removes (lives w) beh fuel w S s G BD AL LV HB HF) as (w' & S' & t & E & G' & T & OK & BD'). exists w', t. split; [exact E|]. split; [exact (r_act beh fuel (AEmit s) w w' H E BD')|]. split; [exact T | exact OK].
Qed.
Print Assumptions C48_disconnecting_callbacks.

(** Slot 1 of 4 disconnects slot 0 (already called), itself, and slot 2 (not called yet). *)
Definition removing : list event -> nat -> list action := fun _ id => if id =? 1 then [ADisconnect 0; ADisconnect 1; ADisconnect 2] else [].
Example C48_example : exists w w', history quiet 9 (start 1) [AConnect 0; AConnect 0; AConnect 0; AConnect 0] = Done w /\ emit removing 9 w 0 = Done w' /\
  skipn (length (trace w)) (trace w') = [ECall 0; ECall 1; EDisconnect 0; EDisconnect 1; EDisconnect 2; ECall 3] /\ connected (trace w') 0 = [3].
Proof.
  witness (history quiet 9 (start 1) [AConnect 0; AConnect 0; AConnect 0; AConnect 0]).
  witness (w <- history quiet 9 (start 1) [AConnect 0; AConnect 0; AConnect 0; AConnect 0] ;; emit removing 9 w 0). crunch.
Qed.

(** *** C49 *)
(** Callbacks may connect too, unless they disconnected themselves before. *)
Theorem C49_connecting_callbacks_partial beh fuel w s w' : reached w -> (forall tr id, Forall noemit (beh tr id) /\ good s id (beh tr id)) -> emit beh fuel w s = Done w' -> bounded w' ->
  exists t, trace w' = trace w ++ t /\ fair_emission s (trace w) t.
Proof.
  intros H HB E BD'. destruct (reached_keeps w H) as (((S & G) & V) & BD). destruct (emit_inv beh fuel w S s w' G HB E BD') as (S' & t & _ & T & OK). eauto.
Qed.
(** A slot that disconnects itself and then connects another one, as the first to be called: slots 1 and 2 are not called. *)
Definition replacing : list event -> nat -> list action := fun _ id => if id =? 0 then [ADisconnect 0; AConnect 0] else [].
Theorem C49_self_replacing_callback_refuted : exists w w' t, reached w /\ emit replacing 9 w 0 = Done w' /\ bounded w' /\ trace w' = trace w ++ t /\ ~ fair_emission 0 (trace w) t /\ connected (trace w) 0 = [0; 1; 2] /\ t = [ECall 0; EDisconnect 0; EConnect 0 3].
Proof.
  destruct (history quiet 0 (start 1) [AConnect 0; AConnect 0; AConnect 0]) as [w|] eqn:E; [|vm_compute in E; discriminate]. exists w.
  assert (R : reached w) by (apply (reached_history _ _ _ _ _ (r_start 1) E); vm_compute in E; injection E as <-; reflexivity). vm_compute in E. injection E as <-.
  eexists _, _. split; [exact R|]. split; [vm_compute; reflexivity|]. split; [reflexivity|]. split; [reflexivity|]. split; [|split; reflexivity].
  intros (_ & H & _). specialize (H 1). cbn in H. destruct H as [H|H]; [auto | | discriminate | exact H].
  intros [K|[K|(s' & [K|K])]]; cbn in K; intuition discriminate.
Qed.
Print Assumptions C49_connecting_callbacks_partial.
Print Assumptions C49_self_replacing_callback_refuted.
Definition adding : list event -> nat -> list action := fun _ id => if id =? 0 then [AConnect 0; ADisconnect 0] else [].
Example C49_example : exists w w', history quiet 9 (start 1) [AConnect 0; AConnect 0] = Done w /\ emit adding 9 w 0 = Done w' /\ skipn (length (trace w)) (trace w') = [ECall 0; EConnect 0 2; EDisconnect 0; ECall 2; ECall 1] /\ (forall tr id, good 0 id (adding tr id)).
Proof.
  eexists _, _. split; [vm_compute; reflexivity|]. split; [vm_compute; reflexivity|]. split; [reflexivity|]. intros tr id a b E K. unfold adding in E. destruct (id =? 0) eqn:EI; [|now destruct a].
  destruct a as [|x [|y a]]; [destruct K | | ]; injection E; intros; subst; try discriminate. destruct a; discriminate.
Qed.

(** *** C50 *)
Theorem C50_is_connected w id : reached w -> (IsConnected w (Some id) = true <-> exists s, In id (connected (trace w) s)).
Proof.
  intros H. destruct (reached_keeps w H) as (((S & R & G) & V) & _). unfold IsConnected, lock. transitivity (owned w id = true); [destruct (owned w id); intuition discriminate|]. rewrite (owned_rep w S id R). split.
  - intros (s & L & P & E & HI). exists s. exact (Permutation_in _ (G _ _ _ E) HI).
  - intros (s & HI). destruct (nth_error (sigs w) s) as [[x|]|] eqn:E.
    + destruct (proj1 (lives_rep w S s R) (ex_intro _ x E)) as (L & P & ES). exists s, L, P. split; [exact ES|]. exact (Permutation_in _ (Permutation_sym (G _ _ _ ES)) HI).
    + rewrite V in HI; [destruct HI|]. intros (x & K). congruence.
    + rewrite V in HI; [destruct HI|]. intros (x & K). congruence.
Qed.
Theorem C50_nothing_is_not_connected w : IsConnected w None = false /\ conn_disconnect w None = Done w.
Proof. split; reflexivity. Qed.
Theorem C50_disconnect w id : reached w -> exists w', conn_disconnect w (Some id) = Done w' /\ reached w' /\ (forall s, connected (trace w') s = without id (connected (trace w) s)) /\ conn_disconnect w' (Some id) = Done w'.
Proof.
  intros H. destruct (C47_actions_succeed quiet 0 w (ADisconnect id) H I) as (w' & E). cbn [act simple_action] in E. exists w'. split; [exact E|]. destruct (reached_keeps w H) as (((S & G) & V) & BD).
  assert (BD' : bounded w') by (pose proof (simple_heap w (ADisconnect id) w' E); unfold conn_disconnect in E; destruct (lock w (Some id)); [|now injection E as <-]; apply bind_inv in E; destruct E as (x & _ & E); unfold bounded; now rewrite (sig_disconnect_heap _ _ _ _ E)).
  assert (R' : reached w') by exact (r_act quiet 0 (ADisconnect id) w w' H E BD'). split; [exact R'|].
  assert (C : forall s, connected (trace w') s = without id (connected (trace w) s)).
  { intros s. unfold conn_disconnect in E. destruct (lock w (Some id)) as [k|] eqn:EL.
    - assert (k = id) by (unfold lock in EL; destruct (owned w id); congruence). subst k. apply bind_inv in E. destruct E as (x & _ & E). destruct (disconnect_lives _ _ _ _ E) as (_ & T). rewrite T, connected_app. reflexivity.
    - injection E as <-. symmetry. apply without_out. intros K. assert (IC : IsConnected w (Some id) = true) by (apply (C50_is_connected w id H); eauto). unfold IsConnected in IC. rewrite EL in IC. discriminate. }
  split; [exact C|]. unfold conn_disconnect. destruct (lock w' (Some id)) as [k|] eqn:EL; [|reflexivity]. exfalso.
  assert (IC : IsConnected w' (Some id) = true) by (unfold IsConnected; now rewrite EL). apply (C50_is_connected w' id R') in IC. destruct IC as (s & IC). rewrite C in IC. apply without_in in IC. now destruct IC.
Qed.
(** In words of connections: the disconnected one ends, the others stay as they are. *)
Theorem C50_disconnect_ends_only_its_slot w id k w' : reached w -> conn_disconnect w (Some id) = Done w' -> IsConnected w' (Some k) = if k =? id then false else IsConnected w (Some k).
Proof.
  intros H E. destruct (C50_disconnect w id H) as (w1 & E1 & R1 & C & _). rewrite E in E1. injection E1 as <-. apply eq_true_iff_eq. rewrite (C50_is_connected w' k R1). destruct (Nat.eqb_spec k id) as [->|D].
  - split; [|discriminate]. intros (s & K). rewrite C in K. apply without_in in K. now destruct K.
  - rewrite (C50_is_connected w k H). split; intros (s & K); exists s; rewrite C in *; [now apply without_in in K | apply without_in; auto].
Qed.
Theorem C50_connect w s : reached w -> lives w s -> (N.of_nat (length (heap w)) + 5 < two64)%N ->
  exists w' id, sig_connect w s = Done (w', id) /\ reached w' /\ (forall t, ~ In id (connected (trace w) t)) /\ (forall t, connected (trace w') t = if t =? s then connected (trace w) s ++ [id] else connected (trace w) t) /\ IsConnected w' (Some id) = true.
Proof.
  intros H LV HN. destruct (reached_keeps w H) as (((S & G) & V) & BD). destruct (proj1 (lives_rep w S s (proj1 G)) LV) as (L & P & ES). destruct (connect_rep w S s L P (proj1 G) BD ES) as (w' & E & R' & HH & _).
  exists w', (length (heap w)). split; [exact E|]. assert (E' : act quiet 0 w (AConnect s) = Done w') by (cbn [act simple_action]; now rewrite E).
  assert (RW : reached w') by (apply (r_act quiet 0 (AConnect s) w w' H E'); unfold bounded; rewrite HH; lia). split; [exact RW|].
  assert (C : forall t, connected (trace w') t = if t =? s then connected (trace w) s ++ [length (heap w)] else connected (trace w) t).
  { intros t. destruct (connect_lives _ _ _ _ E) as (_ & _ & T). rewrite T, connected_app. cbn [fold_left step_connected]. rewrite (Nat.eqb_sym s t). destruct (Nat.eqb_spec t s) as [->|]; reflexivity. }
  split; [|split; [exact C|]].
  - intros t K. destruct (nth_error (sigs w) t) as [[x|]|] eqn:EX; [|rewrite V in K; [destruct K|]; intros (y & Y); congruence..].
    destruct (proj1 (lives_rep w S t (proj1 G)) (ex_intro _ x EX)) as (Lt & Pt & ET). apply (Permutation_in _ (Permutation_sym (proj2 G _ _ _ ET))) in K. apply In_nth_error in K. destruct K as (k & K). pose proof (proj1 (proj2 (proj1 G)) _ _ _ _ _ ET K) as A.
    assert (length (heap w) < length (heap w)) by (apply nth_error_Some; congruence). lia.
  - apply (C50_is_connected w' _ RW). exists s. rewrite C, Nat.eqb_refl. apply in_or_app. right. now left.
Qed.
(** Clearing or destroying a signal ends its connections and no others. *)
Theorem C50_clear w s : reached w -> lives w s -> exists w', sig_clear w s = Done w' /\ reached w' /\ forall t, connected (trace w') t = if t =? s then [] else connected (trace w) t.
Proof.
  intros H LV. destruct (C47_actions_succeed quiet 0 w (AClear s) H LV) as (w' & E). exists w'. split; [exact E|]. destruct (reached_keeps w H) as (((S & G) & V) & BD). destruct (proj1 (lives_rep w S s (proj1 G)) LV) as (L & P & ES). destruct (clear_sig_rep w S s L P (proj1 G) ES) as (w1 & E1 & _ & HH & T).
  cbn [act simple_action] in E. rewrite E in E1. injection E1 as <-. split; [apply (r_act quiet 0 (AClear s) w w' H E); unfold bounded; now rewrite HH|]. intros t. rewrite T, connected_app. cbn [fold_left step_connected]. now rewrite (Nat.eqb_sym s t).
Qed.
Theorem C50_destroy w s : reached w -> lives w s -> exists w', sig_destroy w s = Done w' /\ reached w' /\ ~ lives w' s /\ forall t, connected (trace w') t = if t =? s then [] else connected (trace w) t.
Proof.
  intros H LV. destruct (reached_keeps w H) as (K & BD). destruct (destroy_keeps w s K LV) as (w' & E & _ & T & _ & LL). exists w'. split; [exact E|]. split; [exact (r_destroy s w w' H E)|]. split; [rewrite LL; tauto|]. intros t. rewrite T, connected_app. cbn [fold_left step_connected]. now rewrite (Nat.eqb_sym s t).
Qed.
(** Guards: what the guard held is disconnected on destruction, assignment and Connect. *)
Theorem C50_guards w (g h : option nat) s : reached w -> lives w s -> (N.of_nat (length (heap w)) + 5 < two64)%N ->
  let ended w' := reached w' /\ (forall k, g <> Some k -> IsConnected w' (Some k) = IsConnected w (Some k)) /\ IsConnected w' g = false in
  (exists w', guard_destroy w g = Done w' /\ ended w') /\
  (exists w', guard_assign w g h = Done (w', h) /\ ended w') /\
  (exists w', guard_move_assign w g h = Done (w', h, None) /\ ended w') /\
  (exists w1 w' id, guard_connect w g s = Done (w', Some id) /\ ended w1 /\ sig_connect w1 s = Done (w', id) /\ IsConnected w' (Some id) = true).
Proof.
  intros H LV HN ended.
  assert (K : exists w1, conn_disconnect w g = Done w1 /\ ended w1 /\ lives w1 s /\ length (heap w1) = length (heap w)).
  { destruct g as [id|]; [|exists w; split; [reflexivity|]; split; [split; [exact H|]; split; [reflexivity | reflexivity]|]; split; [exact LV | reflexivity]].
    destruct (C50_disconnect w id H) as (w1 & E & R1 & _). exists w1. split; [exact E|]. split; [split; [exact R1|]; split|split].
    - intros k D. rewrite (C50_disconnect_ends_only_its_slot w id k w1 H E). destruct (Nat.eqb_spec k id); [congruence | reflexivity].
    - now rewrite (C50_disconnect_ends_only_its_slot w id id w1 H E), Nat.eqb_refl.
    - destruct (reached_keeps w H) as ((_ & V) & _). apply (proj2 (simple_vacant w (ADisconnect id) w1 V E)). exact LV.
    - unfold conn_disconnect in E. destruct (lock w (Some id)); [|now injection E as <-]. apply bind_inv in E. destruct E as (x & _ & E). exact (sig_disconnect_heap _ _ _ _ E). }
  destruct K as (w1 & E & EN & LV1 & HH). split; [exists w1; auto|]. split; [exists w1; unfold guard_assign; rewrite E; auto|]. split; [exists w1; unfold guard_move_assign; rewrite E; auto|].
  destruct (C50_connect w1 s (proj1 EN) LV1 ltac:(now rewrite HH)) as (w' & id & EC & _ & _ & _ & IC). exists w1, w', id. unfold guard_connect. rewrite E. cbn [bind]. rewrite EC. auto.
Qed.
Print Assumptions C50_is_connected.
Print Assumptions C50_disconnect.
Print Assumptions C50_disconnect_ends_only_its_slot.
Print Assumptions C50_connect.
Print Assumptions C50_clear.
Print Assumptions C50_destroy.
Print Assumptions C50_guards.
Example C50_example : exists w w', history quiet 0 (start 2) [AConnect 0; AConnect 1; AConnect 0; AConnect 0; ADisconnect 0] = Done w /\ map (fun c => IsConnected w (Some c)) [0; 1; 2; 3; 4] = [false; true; true; true; false] /\
  sig_destroy w 0 = Done w' /\ map (fun c => IsConnected w' (Some c)) [0; 1; 2; 3; 4] = [false; true; false; false; false].
Proof. eexists _, _. crunch. Qed.

(** *** C51 *)
(** The k-th callback (from 0) of the emission emits the signal again. *)
Definition emits_at (s n : nat) : list event -> nat -> list action := fun tr _ => if length tr =? n then [AEmit s] else [].
(** The inner emission calls all slots and the outer one stops: its slots after position k are not called. *)
Theorem C51_nested_emission_refuted fuel w s k : reached w -> lives w s -> k < length (connected (trace w) s) -> 2 * length (connected (trace w) s) + 3 <= fuel ->
  exists w' L, Permutation L (connected (trace w) s) /\ emit (emits_at s (length (trace w) + k + 1)) fuel w s = Done w' /\ trace w' = trace w ++ map ECall (firstn (k + 1) L ++ L).
Proof.
  intros H LV HK HF. destruct (reached_keeps w H) as (((S & G) & V) & BD). destruct (proj1 (lives_rep w S s (proj1 G)) LV) as (L & P & ES). pose proof (proj2 G _ _ _ ES) as PM. rewrite <- (Permutation_length PM) in *.
  destruct (nested (emits_at s (length (trace w) + k + 1)) s fuel w S L P k G BD ES HK ltac:(reflexivity) HF) as (w' & E & _ & T). exists w', L. auto.
Qed.
(** So nothing is lost if the emitting slot is the last one. *)
Theorem C51_nested_emission_from_last_partial fuel w s : reached w -> lives w s -> connected (trace w) s <> [] -> 2 * length (connected (trace w) s) + 3 <= fuel ->
  exists w' L, Permutation L (connected (trace w) s) /\ emit (emits_at s (length (trace w) + length (connected (trace w) s))) fuel w s = Done w' /\ trace w' = trace w ++ map ECall (L ++ L).
Proof.
  intros H LV HK HF. set (n := length (connected (trace w) s)) in *. assert (0 < n) by (unfold n; destruct (connected (trace w) s); [congruence | cbn; lia]).
  destruct (C51_nested_emission_refuted fuel w s (n - 1) H LV ltac:(lia) HF) as (w' & L & PM & E & T). exists w', L. split; [exact PM|]. replace (length (trace w) + (n - 1) + 1) with (length (trace w) + n) in E by lia. split; [exact E|]. rewrite T. do 3 f_equal. rewrite firstn_all2; [reflexivity|]. rewrite (Permutation_length PM). lia.
Qed.
Print Assumptions C51_nested_emission_refuted.
Print Assumptions C51_nested_emission_from_last_partial.
Example C51_example : exists w w', history quiet 0 (start 1) [AConnect 0; AConnect 0; AConnect 0] = Done w /\ emit (emits_at 0 4) 9 w 0 = Done w' /\ calls (skipn (length (trace w)) (trace w')) = [0; 0; 1; 2].
Proof.
  witness (history quiet 0 (start 1) [AConnect 0; AConnect 0; AConnect 0]).
  witness (w <- history quiet 0 (start 1) [AConnect 0; AConnect 0; AConnect 0] ;; emit (emits_at 0 4) 9 w 0). crunch.
Qed.

(** *** C52 *)
Theorem C52_move_partial w d s : reached w -> lives w d -> lives w s -> d <> s -> movable w d s ->
  exists w', sig_move_assign w d s = Done w' /\ reached w' /\ lives w' d /\ lives w' s /\
    connected (trace w') d = connected (trace w) s /\ connected (trace w') s = [] /\ (forall t, t <> d -> t <> s -> connected (trace w') t = connected (trace w) t) /\
    (forall id, IsConnected w' (Some id) = true <-> IsConnected w (Some id) = true /\ ~ In id (connected (trace w) d)).
Proof.
  intros H LD LS D HM. destruct (reached_keeps w H) as (K & BD). destruct (move_keeps w d s K LD LS D HM) as (w' & E & K' & T & HH & SL). exists w'. assert (R' : reached w') by exact (r_move d s w w' H D HM E).
  assert (C : forall t, connected (trace w') t = if d =? t then connected (trace w) s else if s =? t then [] else connected (trace w) t) by (intros t; rewrite T, connected_app; reflexivity).
  split; [exact E|]. split; [exact R'|]. split; [now apply SL|]. split; [now apply SL|]. split; [now rewrite C, Nat.eqb_refl|]. split; [rewrite C, Nat.eqb_refl; now replace (d =? s) with false by lia|]. split; [intros t D1 D2; rewrite C; now replace (d =? t) with false by lia; replace (s =? t) with false by lia|].
  intros id. rewrite (C50_is_connected w' id R'), (C50_is_connected w id H). split.
  - intros (t & KI). rewrite C in KI. destruct (Nat.eqb_spec d t) as [D1|D1].
    + split; [eauto|]. intros KD. exact (D (eq_sym (slot_owner w id s d H KI KD))).
    + destruct (Nat.eqb_spec s t) as [D2|D2]; [destruct KI|]. split; [eauto|]. intros KD. exact (D1 (slot_owner w id d t H KD KI)).
  - intros ((t & KI) & KN). destruct (Nat.eq_dec t d) as [->|D1]; [contradiction|]. destruct (Nat.eq_dec t s) as [->|D2].
    + exists d. now rewrite C, Nat.eqb_refl.
    + exists t. rewrite C. now replace (d =? t) with false by lia; replace (s =? t) with false by lia.
Qed.
(** Two or more slots are always in the std::vector, so such signals move, to signals with no slot or with two or more. *)
Theorem C52_movable w d s : reached w -> lives w d -> lives w s -> 2 <= length (connected (trace w) s) -> 2 <= length (connected (trace w) d) \/ connected (trace w) d = [] -> movable w d s.
Proof.
  intros H LD LS NS ND. right. split; [now apply spilled_two|]. destruct ND as [ND|ND]; [left; now apply spilled_two | now right].
Qed.
(** Moving by construction, from an empty signal or one whose slots are in the std::vector. *)
Theorem C52_move_construct_partial w s : reached w -> lives w s -> spilled w s \/ connected (trace w) s = [] ->
  exists w', sig_move w s = Done w' /\ reached w' /\ connected (trace w') (length (sigs w)) = connected (trace w) s /\ connected (trace w') s = [] /\
    (forall t, t < length (sigs w) -> t <> s -> connected (trace w') t = connected (trace w) t) /\ (forall id, IsConnected w' (Some id) = IsConnected w (Some id)).
Proof.
  intros H LS HM. set (d := length (sigs w)). assert (HN : reached (sig_new w)) by now apply r_new. destruct (reached_keeps w H) as ((_ & V) & _). assert (VD : connected (trace w) d = []) by (apply V; intros (x & K); assert (d < length (sigs w)) by (apply nth_error_Some; congruence); unfold d in *; lia).
  destruct LS as (x & ES). assert (Hs : s < d) by (apply nth_error_Some; congruence).
  assert (LD : lives (sig_new w) d) by (exists new_signal; cbn [sig_new sigs]; unfold d; now rewrite nth_error_app2, Nat.sub_diag by lia). assert (LS : lives (sig_new w) s) by (exists x; cbn [sig_new sigs]; now rewrite nth_error_app1 by exact Hs).
  assert (SP : spilled w s -> spilled (sig_new w) s) by (intros (y & Ey & F); exists y; cbn [sig_new sigs]; now rewrite nth_error_app1 by exact Hs).
  assert (DS : d <> s) by lia.
  assert (MV : movable (sig_new w) d s).
  { destruct HM as [HM|HM]; [right; split; [now apply SP | right; exact VD]|]. destruct (m_size (m_slots x)) eqn:EM.
    - left. split; [exact HM|]. intros (y & Ey & F). cbn [sig_new sigs] in Ey. rewrite nth_error_app1 in Ey by exact Hs. congruence.
    - right. split; [|right; exact VD]. apply SP. exists x. auto. }
  destruct (C52_move_partial (sig_new w) d s HN LD LS DS MV) as (w' & E & R' & _ & _ & C1 & C2 & C3 & C4). exists w'. split; [exact E|]. split; [exact R'|]. split; [exact C1|]. split; [exact C2|]. split; [intros t HT DT; apply C3; [fold d in HT; lia | exact DT]|].
  intros id. apply eq_true_iff_eq. rewrite C4. cbn [sig_new trace]. rewrite VD. rewrite (C50_is_connected _ _ HN), (C50_is_connected _ _ H). cbn [sig_new trace]. intuition.
Qed.
(** A signal with its single slot inline: after the move to a signal whose slots are inline too, emitting it is undefined behaviour. *)
Theorem C52_moved_from_inline_refuted w d s id : reached w -> lives w d -> lives w s -> d <> s -> connected (trace w) s = [id] -> ~ spilled w s -> ~ spilled w d ->
  exists w', sig_move_assign w d s = Done w' /\ forall beh fuel, emit beh (S fuel) w' s = Fault FUB.
Proof.
  intros H LD LS Hds CS NS ND. destruct (reached_keeps w H) as (((S & R & G) & V) & _). pose proof R as (HF & HI & HL). destruct (proj1 (lives_rep w S d R) LD) as (Ld & Pd & ED). destruct (proj1 (lives_rep w S s R) LS) as (Ls & Ps & ES).
  destruct (rep_sig w S d Ld Pd R ED) as (x & EX & HVd & _ & Nd). destruct (rep_sig w S s Ls Ps R ES) as (y & EY & HVs & IY & Ns). assert (Ls = [id]) as -> by (pose proof (G _ _ _ ES) as K; rewrite CS in K; apply Permutation_sym, Permutation_length_1_inv in K; exact K).
  destruct HVs as [(Es & _)|Es]; [|exfalso; apply NS; exists y; split; [exact Ns | now rewrite Es]]. destruct HVd as [(Ed & LV)|Ed]; [|exfalso; apply ND; exists x; split; [exact Nd | now rewrite Ed]].
  assert (D1 : d < length (sigs w)) by (apply nth_error_Some; congruence). assert (S1 : s < length (sigs w)) by (apply nth_error_Some; congruence).
  set (st := map (fun o => match o with Some x => m_slots x | None => fv_new 1 end) (sigs w)). assert (LT : length st = length (sigs w)) by apply map_length.
  assert (Sd : nth_error st d = Some (inl 1 (map Some Ld))) by (unfold st; rewrite nth_error_map, Nd, <- Ed; reflexivity). assert (Ss : nth_error st s = Some (inl 1 [Some id])) by (change [Some id] with (map Some [id]); unfold st; rewrite nth_error_map, Ns, <- Es; reflexivity).
  pose proof (move_assign_from_inline true 1 st d s (inl 1) (map Some Ld) [Some id] Hds (or_introl eq_refl) (or_introl LV) Sd Ss (le_n 1)) as EM. cbn in EM. set (vd := inl 1 [Some id]) in EM. set (vs := inl 1 [None]) in EM.
  unfold sig_move_assign. rewrite EX, EY. cbn [bind]. fold st. rewrite EM. cbn [bind].
  rewrite (vget_some _ s vs) by (rewrite nth_error_upd, Nat.eqb_refl, upd_length; now replace (s <? length st) with true by lia). cbn [bind]. unfold sig_put at 1. rewrite vset_done by exact S1. cbn [bind].
  rewrite (vget_some _ d vd) by (rewrite nth_error_upd; replace (d =? s) with false by lia; cbn [andb]; rewrite nth_error_upd, Nat.eqb_refl; now replace (d <? length st) with true by lia). cbn [bind]. unfold sig_put. cbn [sigs heap leaked trace]. rewrite vset_done by (rewrite upd_length; exact D1). cbn [bind].
  set (w1 := W _ (heap w) (leaked w) (trace w)). destruct (retarget_slots d s [id] (slots_nodup _ _ _ _ _ HI ES) vd w1) as (w2 & E2 & Hsi & Hle & Htr & Hlen & HIn & HOut); [left; split; [reflexivity | cbn; lia] | intros k i Nk; exact (HI _ _ _ _ _ ES Nk)|].
  rewrite E2. cbn [bind]. eexists. split; [reflexivity|]. intros beh fuel. unfold emit, set_iterator, sig_at. cbn [log sigs].
  assert (E3 : nth_error (sigs w2) s = Some (Some (Sig vs (m_slotIterator y)))) by (rewrite Hsi; unfold w1; cbn [sigs]; rewrite nth_error_upd; replace (s =? d) with false by lia; cbn [andb]; rewrite nth_error_upd, Nat.eqb_refl; now replace (s <? length (sigs w)) with true by lia).
  rewrite (vget_some _ _ _ E3). cbn [bind]. assert (S2 : s < length (sigs w2)) by (apply nth_error_Some; congruence). unfold sig_put. cbn [log sigs]. rewrite vset_done by exact S2. cbn [bind emit_loop]. unfold sig_at. cbn [sigs].
  rewrite (vget_some _ s (Some (Sig vs 0))) by (rewrite nth_error_upd, Nat.eqb_refl; now replace (s <? length (sigs w2)) with true by lia). reflexivity.
Qed.
(** Moving a signal with several slots (slots 1 and 2) to one with a single inline slot (slot 0): slot 0 stays alive, is never called any more, and its
    connection disconnects slot 1 instead. *)
Theorem C52_move_leaks_target_refuted : exists w w1 w2 w3, reached w /\ connected (trace w) 0 = [0] /\ connected (trace w) 1 = [1; 2] /\ sig_move_assign w 0 1 = Done w1 /\ IsConnected w1 (Some 0) = true /\
  emit quiet 9 w1 0 = Done w2 /\ calls (skipn (length (trace w1)) (trace w2)) = [1; 2] /\
  conn_disconnect w1 (Some 0) = Done w3 /\ map (fun c => IsConnected w3 (Some c)) [0; 1; 2] = [true; false; true].
Proof.
  destruct (history quiet 0 (start 2) [AConnect 0; AConnect 1; AConnect 1]) as [w|] eqn:E; [|vm_compute in E; discriminate]. exists w.
  assert (R : reached w) by (apply (reached_history _ _ _ _ _ (r_start 2) E); vm_compute in E; injection E as <-; reflexivity). vm_compute in E. injection E as <-.
  eexists _, _, _. split; [exact R|]. crunch.
Qed.
(** Moving a signal with its single slot inline (slot 2) to one with several: both signals call the slot afterwards. *)
Theorem C52_move_copies_refuted : exists w w1 w2 w3, reached w /\ connected (trace w) 1 = [2] /\ sig_move_assign w 0 1 = Done w1 /\
  emit quiet 9 w1 0 = Done w2 /\ calls (skipn (length (trace w1)) (trace w2)) = [2] /\ emit quiet 9 w1 1 = Done w3 /\ calls (skipn (length (trace w1)) (trace w3)) = [2].
Proof.
  destruct (history quiet 0 (start 2) [AConnect 0; AConnect 0; AConnect 1]) as [w|] eqn:E; [|vm_compute in E; discriminate]. exists w.
  assert (R : reached w) by (apply (reached_history _ _ _ _ _ (r_start 2) E); vm_compute in E; injection E as <-; reflexivity). vm_compute in E. injection E as <-.
  eexists _, _, _. split; [exact R|]. crunch.
Qed.
Print Assumptions C52_move_partial.
Print Assumptions C52_movable.
Print Assumptions C52_move_construct_partial.
Print Assumptions C52_moved_from_inline_refuted.
Print Assumptions C52_move_leaks_target_refuted.
Print Assumptions C52_move_copies_refuted.
Example C52_example : exists w w1 w2 w3, history quiet 0 (start 2) [AConnect 1; AConnect 1; AConnect 1; ADisconnect 1] = Done w /\ sig_move_assign w 0 1 = Done w1 /\ conn_disconnect w1 (Some 0) = Done w2 /\ connected (trace w2) 0 = [2] /\
  emit quiet 9 w2 0 = Done w3 /\ calls (skipn (length (trace w2)) (trace w3)) = [2] /\ (exists w4, emit quiet 9 w2 1 = Done w4 /\ trace w4 = trace w2).
Proof. eexists _, _, _, _. do 6 (split; [vm_compute; reflexivity|]). eexists. crunch. Qed.
