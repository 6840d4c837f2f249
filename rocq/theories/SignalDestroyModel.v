(** Signal.inl: emissions whose callbacks also destroy signals (~Signal() = default) or move them into new ones (Signal(Signal&&) 42-45).
    Otherwise the emission of SignalModel.v. *)
From Verif Require Export SignalModel.
Open Scope nat_scope.

Inductive xaction := XAct (a : action) | XDestroy (s : nat) | XMove (s : nat).
Fixpoint xperform (emit : world -> nat -> outcome world) (acts : list xaction) (w : world) : outcome world :=
  match acts with
  | [] => Done w
  | x :: r =>
    w <- (match x with
          | XAct (AEmit t) => emit w t
          | XAct a => simple_action w a
          | XDestroy s => sig_destroy w s
          | XMove s => sig_move w s
          end) ;;
    xperform emit r w
  end.
Section Emission.
Variable beh : list event -> nat -> list xaction.
(** operator() 179-183: m_slotIterator and m_slots are members of the signal, which must exist each time. *)
Fixpoint xemit_loop (fuel : nat) (w : world) (s : nat) : outcome world :=
  match fuel with
  | O => Fault FDiverge
  | S fuel =>
    x <- sig_at w s ;;
    if (m_slotIterator x <? N.of_nat (fv_size true (m_slots x)))%N then
      o <- fv_at true (m_slots x) (N.to_nat (m_slotIterator x)) ;;
      match o with
      | None => Fault FUB
      | Some id =>
        let w := log w (ECall id) in
        w <- xperform (fun w t => w <- set_iterator w t (fun _ => 0%N) ;; xemit_loop fuel w t) (beh (trace w) id) w ;;
        w <- set_iterator w s inc ;;
        xemit_loop fuel w s
      end
    else Done w
  end.
Definition xemit (fuel : nat) (w : world) (s : nat) : outcome world := w <- set_iterator w s (fun _ => 0%N) ;; xemit_loop fuel w s.
End Emission.
