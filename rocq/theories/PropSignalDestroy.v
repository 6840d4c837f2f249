(** Property C133: callbacks that destroy or move signals during an emission. *)
From Coq Require Import Permutation.
From Verif Require Import CellModel VectorModel SignalSpec SignalModel SignalProofs SignalEmit SignalHistory SignalDestroyModel SignalDestroy PropSignal.
Open Scope nat_scope.

(** Destroying signals from callbacks: an emission that ends is the emission whose callbacks clear these signals. The calls, the connections and the signals left are the same, the
    signal emitted is left, and any program may go on from there. *)
Theorem C133_destroy_is_clear_partial beh fuel w s w' : reached w -> (forall tr id, Forall nomove (beh tr id)) -> xemit beh fuel w s = Done w' -> bounded w' ->
  reached w' /\ lives w' s /\
  exists v', emit (fun tr id => map cleared (beh tr id)) fuel w s = Done v' /\ reached v' /\ trace w' = trace v' /\ (forall t, lives w' t -> nth_error (sigs w') t = nth_error (sigs v') t) /\
    forall c, IsConnected w' c = IsConnected v' c.
Proof.
  intros H N E B. destruct (reached_keeps w H) as (K & _). split; [exact (r_destroying beh fuel s w w' H N E B)|]. split; [unfold xemit in E; apply bind_inv in E; destruct E as (w1 & _ & E); exact (xloop_lives _ _ _ _ _ E)|].
  destruct (xemit_sim beh fuel w s w' N K E B) as (D & v & F & S & KV). exists v. split; [exact F|]. assert (BV : bounded v) by (unfold bounded in *; rewrite <- (sim_heap _ _ _ S); exact B). split; [exact (r_act (fun tr id => map cleared (beh tr id)) fuel (AEmit s) w v H F BV)|]. split; [exact (sim_trace _ _ _ S)|].
  split; [intros t L; exact (proj2 (sim_lives D w' v t S L))|]. intros [c|]; [|reflexivity]. unfold IsConnected, lock. now rewrite (sim_owned D w' v c S).
Qed.

(** So emissions whose callbacks destroy signals are fair, as in C49. *)
Theorem C133_fair_partial beh fuel w s w' : reached w -> (forall tr id, Forall nomove (beh tr id) /\ Forall noemit (map cleared (beh tr id)) /\ good s id (map cleared (beh tr id))) ->
  xemit beh fuel w s = Done w' -> bounded w' -> exists t, trace w' = trace w ++ t /\ fair_emission s (trace w) t.
Proof.
  intros H HB E B. destruct (C133_destroy_is_clear_partial beh fuel w s w' H (fun tr id => proj1 (HB tr id)) E B) as (_ & _ & v & F & _ & T & _). rewrite T.
  destruct (xemit_sim beh fuel w s w' (fun tr id => proj1 (HB tr id)) (proj1 (reached_keeps w H)) E B) as (D & v2 & F2 & S & _). rewrite F in F2. injection F2 as <-. assert (BV : bounded v) by (unfold bounded in *; rewrite <- (sim_heap _ _ _ S); exact B).
  exact (C49_connecting_callbacks_partial (fun tr id => map cleared (beh tr id)) fuel w s v H (fun tr id => proj2 (HB tr id)) F BV).
Qed.

(** A callback that destroys the signal being emitted: operator() goes on with the destroyed members, whatever the callback does besides. *)
Theorem C133_destroy_emitted_refuted beh fuel w s w' : reached w -> connected (trace w) s <> [] -> (forall tr id, Forall nomove (beh tr id) /\ In (XDestroy s) (beh tr id)) -> xemit beh fuel w s <> Done w'.
Proof.
  intros H HC HB E. destruct (reached_keeps w H) as (((S & G) & V) & _). unfold xemit in E. apply bind_inv in E. destruct E as (w1 & E1 & E). destruct (set_iterator_ginv w S s _ w1 G E1) as (S1 & G1).
  destruct fuel as [|fuel]; cbn [xemit_loop] in E; [discriminate|]. step E. destruct (_ <? _)%N eqn:LT.
  - step E. destruct a0 as [id|]; [|discriminate]. step E. step E. pose proof (proj1 (proj2 (iterator_after _ _ _ _ E4))) as L. apply xperform_after in E3; [exact (proj2 E3 s (proj2 (HB _ _)) L)| |apply HB].
    intros wa t wb K. apply bind_inv in K. destruct K as (wc & K1 & K). intros u LU. apply (proj1 (iterator_after _ _ _ _ K1)). exact (xloop_after beh fuel (fun tr id => proj1 (HB tr id)) _ _ _ K u LU).
  - clear E. unfold set_iterator in E1. step E1. pose proof (proj1 (sig_at_nth _ _ _) E) as N. unfold sig_put, vset in E1. destruct (s <? length (sigs w)) eqn:LS; [|discriminate]. injection E1 as <-. apply sig_at_nth in E0. cbn [sigs] in E0. rewrite nth_error_upd, Nat.eqb_refl, LS in E0. injection E0 as <-.
    cbn [m_slotIterator m_slots] in LT. destruct (sig_at_alive w S s a0 (proj1 G) E) as ([L P] & ES). destruct (rep_sig w S s L P (proj1 G) ES) as (x & X & HV & _). rewrite E in X. injection X as <-. rewrite (hv_size _ _ HV), map_length in LT. apply HC. apply Permutation_nil. rewrite <- (proj2 G _ _ _ ES). destruct L; [constructor|discriminate LT].
Qed.
(** As soon as it returns: undefined behavior. *)
Definition suicidal : list event -> nat -> list xaction := fun _ _ => [XDestroy 0].
Theorem C133_destroy_emitted_UB_refuted : exists w, reached w /\ connected (trace w) 0 = [0] /\ forall fuel, xemit suicidal (S fuel) w 0 = Fault FUB.
Proof.
  destruct (act (fun _ _ => []) 1 (start 1) (AConnect 0)) as [w|] eqn:E; [|vm_compute in E; discriminate]. exists w. assert (B : bounded w) by (vm_compute in E; injection E as <-; reflexivity). split; [exact (r_act _ _ _ _ _ (r_start 1) E B)|]. vm_compute in E. injection E as <-. split; [reflexivity|]. intros fuel. reflexivity.
Qed.

(** A callback that moves the signal being emitted into another one: the slots not called yet are not called, though they stay connected. *)
Definition moving : list event -> nat -> list xaction := fun _ id => if id =? 0 then [XMove 0] else [].
Theorem C133_move_emitted_refuted : exists w w' t, reached w /\ connected (trace w) 0 = [0; 1; 2] /\ xemit moving 9 w 0 = Done w' /\ trace w' = trace w ++ t /\ t = [ECall 0; EMove 1 0] /\
  IsConnected w' (Some 1) = true /\ IsConnected w' (Some 2) = true /\ connected (trace w') 1 = [0; 1; 2].
Proof.
  destruct (history (fun _ _ => []) 1 (start 1) [AConnect 0; AConnect 0; AConnect 0]) as [w|] eqn:E; [|vm_compute in E; discriminate]. exists w. assert (B : bounded w) by (vm_compute in E; injection E as <-; reflexivity). pose proof (reached_history _ _ _ _ _ (r_start 1) E B) as R.
  destruct (xemit moving 9 w 0) as [w'|] eqn:F; [|vm_compute in E; injection E as <-; vm_compute in F; discriminate]. exists w', [ECall 0; EMove 1 0]. split; [exact R|]. vm_compute in E. injection E as <-. vm_compute in F. injection F as <-. repeat split; vm_compute; reflexivity.
Qed.

(** Signal 0 has slots 0 and 1; the callback of slot 0 destroys signal 1, whose slots are then disconnected. *)
Definition killer : list event -> nat -> list xaction := fun _ id => if id =? 0 then [XDestroy 1] else [].
Example C133_example : exists w w', history (fun _ _ => []) 1 (start 2) [AConnect 0; AConnect 0; AConnect 1] = Done w /\ xemit killer 9 w 0 = Done w' /\ trace w' = trace w ++ [ECall 0; EClear 1; ECall 1] /\
  IsConnected w (Some 2) = true /\ IsConnected w' (Some 2) = false /\ IsConnected w' (Some 1) = true /\ ~ lives w' 1.
Proof.
  destruct (history (fun _ _ => []) 1 (start 2) [AConnect 0; AConnect 0; AConnect 1]) as [w|] eqn:E; [|vm_compute in E; discriminate]. exists w. vm_compute in E. injection E as <-. match goal with |- context [xemit ?b ?f ?x ?s] => destruct (xemit b f x s) as [w'|] eqn:F; vm_compute in F; [|discriminate F] end. exists w'. injection F as <-.
  repeat split; try (vm_compute; reflexivity). intros (x & X). discriminate X.
Qed.
Print Assumptions C133_destroy_is_clear_partial.
Print Assumptions C133_fair_partial.
Print Assumptions C133_destroy_emitted_refuted.
Print Assumptions C133_destroy_emitted_UB_refuted.
Print Assumptions C133_move_emitted_refuted.
