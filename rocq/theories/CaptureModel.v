(** Emissions in which callbacks use their captures before each thing they do, at every level of nested emission. The captures of a callback are in its slot
    object, which lives as long as a SlotPtr holds it: operator() (Signal.inl 179-183) calls m_callback of the slot in place and holds no SlotPtr of its own. *)
From Verif Require Export SignalModel.
Open Scope nat_scope.

Fixpoint perform_using (ok : world -> bool) (emit : world -> nat -> outcome world) (acts : list action) (w : world) : outcome world :=
  match acts with
  | [] => Done w
  | a :: r => require (ok w) ;;; w <- (match a with AEmit t => emit w t | _ => simple_action w a end) ;; perform_using ok emit r w
  end.
Section Using.
(** [ok w s id]: the callback of slot [id], called by signal [s], can go on in [w]. *)
Variables (beh : list event -> nat -> list action) (ok : world -> nat -> nat -> bool).
Fixpoint using_loop (fuel : nat) (w : world) (s : nat) : outcome world :=
  match fuel with
  | O => Fault FDiverge
  | S fuel =>
    x <- sig_at w s ;;
    if (m_slotIterator x <? N.of_nat (fv_size true (m_slots x)))%N then
      o <- fv_at true (m_slots x) (N.to_nat (m_slotIterator x)) ;;
      match o with
      | None => Fault FUB
      | Some id =>
        let w := log w (ECall id) in
        w <- perform_using (fun w => ok w s id) (fun w t => w <- set_iterator w t (fun _ => 0%N) ;; using_loop fuel w t) (beh (trace w) id) w ;;
        w <- set_iterator w s inc ;;
        using_loop fuel w s
      end
    else Done w
  end.
Definition emit_using (fuel : nat) (w : world) (s : nat) : outcome world := w <- set_iterator w s (fun _ => 0%N) ;; using_loop fuel w s.
End Using.
(** [uses s id]: the callback of slot [id], called by signal [s], uses its captures. *)
Definition emit_captured (beh : list event -> nat -> list action) (uses : nat -> nat -> bool) : nat -> world -> nat -> outcome world :=
  emit_using beh (fun w s id => negb (uses s id) || owned w id).
