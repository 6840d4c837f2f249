(** Model of Signal::operator() (Signal.inl 179-183) when callbacks throw. An exception leaves the loop where it is: m_slotIterator keeps its value. *)
From Verif Require Export SignalModel.
Open Scope nat_scope.

(** What a callback does: an action (an exception of a nested emission goes through the callback), a nested emission in a try block that swallows
    everything, or a throw. *)
Inductive taction := TDo (a : action) | TTry (s : nat) | TThrow.

(** The world, and whether an exception is on its way. *)
Fixpoint tperform (emit : world -> nat -> outcome (world * bool)) (acts : list taction) (w : world) : outcome (world * bool) :=
  match acts with
  | [] => Done (w, false)
  | TThrow :: _ => Done (w, true)
  | TTry t :: r => ' (w, _) <- emit w t ;; tperform emit r w
  | TDo a :: r =>
    ' (w, x) <- (match a with AEmit t => emit w t | _ => w <- simple_action w a ;; Done (w, false) end) ;;
    if x : bool then Done (w, true) else tperform emit r w
  end.

Section Emission.
Variable beh : list event -> nat -> list taction.
(** operator() 179-183 *)
Fixpoint temit_loop (fuel : nat) (w : world) (s : nat) : outcome (world * bool) :=
  match fuel with
  | O => Fault FDiverge
  | S fuel =>
    x <- sig_at w s ;;
    if (m_slotIterator x <? N.of_nat (fv_size true (m_slots x)))%N then
      o <- fv_at true (m_slots x) (N.to_nat (m_slotIterator x)) ;;
      match o with
      | None => Fault FUB
      | Some id =>
        let w := log w (ECall id) in
        ' (w, thrown) <- tperform (fun w t => w <- set_iterator w t (fun _ => 0%N) ;; temit_loop fuel w t) (beh (trace w) id) w ;;
        if thrown : bool then Done (w, true)
        else w <- set_iterator w s inc ;; temit_loop fuel w s
      end
    else Done (w, false)
  end.
Definition temit (fuel : nat) (w : world) (s : nat) : outcome (world * bool) := w <- set_iterator w s (fun _ => 0%N) ;; temit_loop fuel w s.
(** At top level. *)
Definition tact (fuel : nat) (w : world) (a : action) : outcome (world * bool) :=
  match a with AEmit s => temit fuel w s | _ => w <- simple_action w a ;; Done (w, false) end.
End Emission.
