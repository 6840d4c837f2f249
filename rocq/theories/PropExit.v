(** Properties C67 and C68: CallOnExit. *)
From Verif Require Import Base ExitModel.

Inductive op := OReset | OCallAndReset.
Section Runs.
  Context {F : Type} (beh : F -> list self_action) (throws : F -> list F -> bool).
  (** The body of a scope using the object, then its end; an exception leaves the scope and destroys the object. *)
  Fixpoint scope (fuel : nat) (h : list op) (s : state F) : outcome (list F) :=
    match h with
    | [] => destroy beh throws fuel s
    | OReset :: r => scope fuel r (Reset s)
    | OCallAndReset :: r =>
      ' (s', e) <- CallAndReset beh throws fuel s ;; match e with Normal => scope fuel r s' | Thrown => destroy beh throws fuel s' end
    end.
  (** A functor that does not start by calling its own CallAndReset. *)
  Definition tame (f : F) : Prop := match beh f with SCallAndReset :: _ => False | _ => True end.
  Lemma empty_call fuel s : functor s = None -> CallAndReset beh throws fuel s = Done (Reset s, Normal).
  Proof. intros H. destruct fuel; cbn; now rewrite H. Qed.
  Lemma empty_scope fuel h : forall s, functor s = None -> scope fuel h s = Done (runs s).
  Proof.
    induction h as [|[] h IH]; intros s H; cbn [scope].
    - unfold destroy. rewrite empty_call by exact H. reflexivity.
    - rewrite IH by reflexivity. reflexivity.
    - rewrite empty_call by exact H. cbn [bind]. rewrite IH by reflexivity. reflexivity.
  Qed.
  Lemma tame_call fuel s f : functor s = Some f -> tame f -> throws f (runs s ++ [f]) = false ->
    CallAndReset beh throws (S fuel) s = Done (mkState None (runs s ++ [f]), Normal).
  Proof.
    intros H T N. cbn [CallAndReset]. rewrite H. unfold tame in T. cbn [runs]. destruct (beh f) as [|[] r]; [cbn; now rewrite N| |contradiction].
    cbn [bind]. unfold Reset at 1. cbn [functor runs].
    set (acts := fix acts (l : list self_action) (s : state F) : outcome (state F * ending) := _).
    assert (E : forall l s', functor s' = None -> acts l s' = Done (s', Normal)).
    { induction l as [|[] l IH]; intros s' Hs; cbn [acts]; [reflexivity| |].
      - fold acts. rewrite IH by reflexivity. unfold Reset. rewrite <- Hs. now destruct s'.
      - rewrite empty_call by exact Hs. cbn [bind]. fold acts. rewrite IH by reflexivity. unfold Reset. rewrite <- Hs. now destruct s'. }
    rewrite E by reflexivity. cbn [bind]. rewrite N. reflexivity.
  Qed.
End Runs.

(** *** C67 *)
(** Over every history: the functor runs once if the first operation is CallAndReset or there is none, and never after a first Reset. *)
Theorem C67_exactly_once : forall (F : Type) beh throws (f : F) h log fuel, tame beh f -> throws f (log ++ [f]) = false ->
  scope beh throws (S fuel) h (mkState (construct f) log) = Done (match h with OReset :: _ => log | _ => log ++ [f] end).
Proof.
  intros F beh throws f h log fuel T N. unfold construct. destruct h as [|[] h]; cbn [scope].
  - unfold destroy. rewrite (tame_call beh throws fuel (mkState (Some f) log) f eq_refl T N). reflexivity.
  - now rewrite empty_scope.
  - rewrite (tame_call beh throws fuel (mkState (Some f) log) f eq_refl T N). cbn [bind]. now rewrite empty_scope.
Qed.
Print Assumptions C67_exactly_once.
Theorem C67_empty : forall (F : Type) (beh : F -> list self_action) throws h log fuel, scope beh throws fuel h (mkState construct_empty log) = Done log.
Proof. intros. now apply empty_scope. Qed.
Print Assumptions C67_empty.
(** A functor that throws out of CallAndReset is not reset: the destructor runs it a second time (and ends the program if it throws again). *)
Theorem C67_throwing_refuted : forall (F : Type) (beh : F -> list self_action) throws (f : F) r log fuel, beh f = [] -> throws f (log ++ [f]) = true ->
  scope beh throws (S fuel) (OCallAndReset :: r) (mkState (construct f) log) =
    if throws f (log ++ [f; f]) then Fault FTerminate else Done (log ++ [f; f]).
Proof.
  intros F beh throws f r log fuel B N. unfold construct. cbn [scope CallAndReset functor]. rewrite B. cbn [bind runs]. rewrite N. cbn [bind].
  unfold destroy. cbn [CallAndReset functor]. rewrite B. cbn [bind runs]. rewrite <- app_assoc. cbn [app]. destruct (throws f (log ++ [f; f])); reflexivity.
Qed.
Print Assumptions C67_throwing_refuted.
(** A functor that calls CallAndReset on its own object never stops. *)
Theorem C67_reentrant_refuted : forall (F : Type) beh throws (f : F) r fuel log, beh f = SCallAndReset :: r -> CallAndReset beh throws fuel (mkState (Some f) log) = Fault FDiverge.
Proof.
  intros F beh throws f r fuel. induction fuel as [|fuel IH]; intros log B; cbn [CallAndReset functor]; [reflexivity|].
  rewrite B. cbn [runs]. rewrite IH by exact B. reflexivity.
Qed.
Print Assumptions C67_reentrant_refuted.
Example C67_nonvacuous :
  let b := fun _ : nat => @nil self_action in let t := fun (_ : nat) (_ : list nat) => false in
  scope b t 5 [] (mkState (Some 3) []) = Done [3] /\ scope b t 5 [OCallAndReset; OCallAndReset; OReset] (mkState (Some 3) []) = Done [3] /\ scope b t 5 [OReset; OCallAndReset] (mkState (Some 3) []) = Done [] /\
  scope (fun _ => [SReset; SCallAndReset]) t 5 [] (mkState (Some 3) []) = Done [3].
Proof. vm_compute. repeat split. Qed.

(** *** C68 *)
(** Two objects [a] and [b], [a = std::move(b)], then the end of both scopes (b declared last, destroyed first). *)
Definition transfer {F} (beh : F -> list self_action) throws moved (a b : option F) : outcome (list F) :=
  let '(a', b') := move_assign moved a b in
  w <- destroy beh throws 1 (mkState b' []) ;; destroy beh throws 1 (mkState a' w).
(** The source still calls: its functor runs twice, or (std::function) its moved-from state runs; the target's functor is dropped. *)
Theorem C68_engaged_source_refuted : forall (F : Type) (moved : F -> F) (a : option F) (f : F),
  transfer (fun _ => []) (fun _ _ => false) moved a (Some f) = Done [moved f; f].
Proof. reflexivity. Qed.
Print Assumptions C68_engaged_source_refuted.
Theorem C68_dropped_target_refuted : forall (F : Type) (moved : F -> F) (g : F), transfer (fun _ => []) (fun _ _ => false) moved (Some g) None = Done [].
Proof. reflexivity. Qed.
Print Assumptions C68_dropped_target_refuted.
(** A moved-from functor whose call throws (an empty std::function) ends the program. *)
Theorem C68_moved_from_throws_refuted : forall (F : Type) (moved : F -> F) throws (a : option F) (f : F), throws (moved f) [moved f] = true ->
  transfer (fun _ => []) throws moved a (Some f) = Fault FTerminate.
Proof. intros F moved throws a f H. unfold transfer, destroy. cbn. now rewrite H. Qed.
Print Assumptions C68_moved_from_throws_refuted.
(** It works if the target is empty and the source is reset by hand afterwards. *)
Theorem C68_reset_source_partial : forall (F : Type) (moved : F -> F) (f : F),
  let '(a', b') := move_assign moved None (Some f) in
  (w <- destroy (fun _ => []) (fun _ _ => false) 1 (Reset (mkState b' [])) ;; destroy (fun _ => []) (fun _ _ => false) 1 (mkState a' w)) = Done [f].
Proof. reflexivity. Qed.
Print Assumptions C68_reset_source_partial.
Example C68_nonvacuous : transfer (fun _ => []) (fun _ _ => false) (fun f => f) (Some 1) (Some 2) = Done [2; 2].
Proof. reflexivity. Qed.
