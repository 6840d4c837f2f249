(** Property C118 with nested emissions: callbacks whose captures are used before each thing they do, emissions included. *)
From Verif Require Import SignalSpec SignalModel SignalProofs SignalEmit SignalHistory CaptureModel CaptureProofs PropSignal.
Open Scope nat_scope.

(** The slot is connected to the signal, by what happened so far. *)
Definition is_connected (t : list event) (s id : nat) : bool := existsb (Nat.eqb id) (connected t s).

(** Whatever the callbacks do, at every level: using captures is defined exactly as long as the slot is still connected to the signal that called it. *)
Theorem C118_nested_partial beh uses fuel w s w' : reached w -> emit beh fuel w s = Done w' -> bounded w' ->
  emit_captured beh uses fuel w s = emit_using beh (fun w s id => negb (uses s id) || is_connected (trace w) s id) fuel w s /\
  (emit_captured beh uses fuel w s = Done w' \/ emit_captured beh uses fuel w s = Fault FUB).
Proof. intros H E HB. exact (emit_agree beh uses fuel w s w' (proj1 (reached_keeps w H)) E HB). Qed.
(** Callbacks that nobody disconnects, of signals that nobody clears, can use their captures all the time. *)
Theorem C118_kept_slots beh (uses : nat -> nat -> bool) fuel w s w' : reached w -> emit beh fuel w s = Done w' -> bounded w' ->
  (forall tr id a, In a (beh tr id) -> match a with ADisconnect c => forall s, uses s c = false | AClear t => forall id, uses t id = false | _ => True end) -> emit_captured beh uses fuel w s = Done w'.
Proof.
  intros H E HB HA. destruct (C118_nested_partial beh uses fuel w s w' H E HB) as (-> & _). unfold emit_using, emit in *. apply bind_inv in E. destruct E as (w1 & E1 & E). rewrite E1. cbn [bind].
  apply (loop_spared beh uses); [| |exact E|exact HB]; [intros tr id; apply Forall_forall; intros a K; exact (HA tr id a K) | exact (iterator_keeps _ _ _ _ (proj1 (reached_keeps w H)) E1)].
Qed.
(** Ending the own slot last is not enough: a callback that calls itself through an emission, and whose inner call ends the slot as its last action, goes on without captures. *)
Definition once_more : list event -> nat -> list action := fun tr _ => if length tr <? 3 then [AEmit 0; ADisconnect 0] else [ADisconnect 0].
Theorem C118_nested_refuted : exists w w', reached w /\ (forall tr id a, In a (removelast (once_more tr id)) -> a = AEmit 0) /\
  emit once_more 5 w 0 = Done w' /\ bounded w' /\ emit_captured once_more (fun _ _ => true) 5 w 0 = Fault FUB /\ emit_captured once_more (fun _ _ => false) 5 w 0 = Done w'.
Proof.
  destruct (history (fun _ _ => []) 0 (start 1) [AConnect 0]) as [w|] eqn:E; [|discriminate E]. exists w.
  assert (R : reached w). { unfold history in E. cbn [perform] in E. apply bind_inv in E. destruct E as (w1 & E & E1). injection E1 as ->. apply (r_act (fun _ _ => []) 0 (AConnect 0) (start 1)); [apply r_start | exact E |]. vm_compute in E. injection E as <-. vm_compute. reflexivity. }
  destruct (emit once_more 5 w 0) as [w'|] eqn:E2; [|vm_compute in E; injection E as <-; vm_compute in E2; discriminate E2]. exists w'. split; [exact R|]. split.
  - intros tr id a. unfold once_more. destruct (length tr <? 3); cbn [removelast In]; [intros [<-|[]]; reflexivity | intros []].
  - split; [reflexivity|]. vm_compute in E. injection E as <-. vm_compute in E2. injection E2 as <-. split; [vm_compute; reflexivity|]. split; vm_compute; reflexivity.
Qed.
Print Assumptions C118_nested_partial.
Print Assumptions C118_kept_slots.
Print Assumptions C118_nested_refuted.
(** Two signals: the callback of the first emits the second, whose callback connects slots and disconnects a third one. *)
Example C118_nested_example : match history (fun _ _ => []) 0 (start 2) [AConnect 0; AConnect 1; AConnect 1] with
  | Done w => let beh := fun _ id => match id with 0 => [AEmit 1; AConnect 0; AEmit 1] | 1 => [ADisconnect 2; AConnect 1] | _ => [] end in
    (exists w', emit beh 9 w 0 = Done w' /\ emit_captured beh (fun _ id => negb (id =? 2)) 9 w 0 = Done w') /\
    (let clears := fun _ id => match id with 0 => [AEmit 1; AConnect 0] | 1 => [AClear 0] | _ => [] end in emit_captured clears (fun _ id => id =? 0) 9 w 0 = Fault FUB /\ exists w', emit_captured clears (fun _ id => negb (id =? 0)) 9 w 0 = Done w')
  | Fault _ => False
  end.
Proof. vm_compute. split; [eexists; split; reflexivity|]. split; [reflexivity | eexists; reflexivity]. Qed.
