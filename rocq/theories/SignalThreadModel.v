(** Model of threads that emit signals: Signal::operator() const (Signal.inl), one access to memory at a time.
    The position of an emission is the member m_slotIterator of the signal (Signal.hpp 76), declared mutable, so that all emissions of a signal share it.
    Accesses of the threads are interleaved in any order. The callbacks do not use signals; a signal is given by its number and its slots by their positions.
    With [guarded], the program holds a mutex of its own, one per signal, around each emission. *)
From Verif Require Import Base.
Open Scope nat_scope.

(** Where a thread is in
      for (m_slotIterator = 0; m_slotIterator < m_slots.size(); ++m_slotIterator)
          m_slots[m_slotIterator]->callback(args...);
    Before the mutex; before the three reads and the two writes of m_slotIterator; before the call of a slot; before the mutex is given back. *)
Inductive pc := Enter | Zero | Compare | Subscript | Invoke (i : nat) | Load | Store (x : nat) | Leave.
(** A thread: the signals it has still to emit, the first of which it is emitting. *)
Record thread := T { todo : list nat; at_ : pc }.
(** m_slotIterator and the mutex of each signal; the threads; the calls made, as thread, signal, slot. *)
Record state := St { iter : nat -> nat; mutex : nat -> option nat; threads : nat -> thread; calls : list (nat * nat * nat) }.

Definition put {X} (f : nat -> X) (d : nat) (x : X) : nat -> X := fun k => if k =? d then x else f k.
Definition go (st : state) (t : nat) (p : pc) : state := St (iter st) (mutex st) (put (threads st) t (T (todo (threads st t)) p)) (calls st).
Definition set_iter (st : state) (s x : nat) : state := St (put (iter st) s x) (mutex st) (threads st) (calls st).
Definition set_mutex (st : state) (s : nat) (o : option nat) : state := St (iter st) (put (mutex st) s o) (threads st) (calls st).

Section Steps.
Variables (guarded : bool) (slots : nat -> nat).   (* m_slots.size() of each signal *)

(** The next access of thread [t]. A thread that waits, or has nothing left to do, changes nothing. *)
Definition step (st : state) (t : nat) : outcome state :=
  match todo (threads st t) with
  | [] => Done st
  | s :: rest =>
    match at_ (threads st t) with
    | Enter =>
      if guarded then match mutex st s with None => Done (go (set_mutex st s (Some t)) t Zero) | Some _ => Done st end
      else Done (go st t Zero)
    | Zero => Done (go (set_iter st s 0) t Compare)
    | Compare => Done (go st t (if iter st s <? slots s then Subscript else Leave))
    | Subscript => require (iter st s <? slots s) ;;; Done (go st t (Invoke (iter st s)))
    | Invoke i => Done (go (St (iter st) (mutex st) (threads st) (calls st ++ [(t, s, i)])) t Load)
    | Load => Done (go st t (Store (iter st s + 1)))
    | Store x => Done (go (set_iter st s x) t Compare)
    | Leave =>
      let st := if guarded then set_mutex st s None else st in
      Done (St (iter st) (mutex st) (put (threads st) t (T rest Enter)) (calls st))
    end
  end.
Fixpoint exec (st : state) (schedule : list nat) : outcome state :=
  match schedule with
  | [] => Done st
  | t :: schedule => st <- step st t ;; exec st schedule
  end.
End Steps.

(** m_slotIterator of every signal has some value. *)
Definition start (i0 : nat -> nat) (programs : nat -> list nat) : state := St i0 (fun _ => None) (fun t => T (programs t) Enter) [].

(** The access a thread is about to make: the signal whose m_slotIterator it is, and whether it writes. *)
Definition access (th : thread) : option (nat * bool) :=
  match todo th with
  | [] => None
  | s :: _ => match at_ th with Zero | Store _ => Some (s, true) | Compare | Subscript | Load => Some (s, false) | _ => None end
  end.
(** A data race: two threads about to access the same m_slotIterator, not both to read it. *)
Definition race (st : state) : Prop := exists t u s v w, t <> u /\ access (threads st t) = Some (s, v) /\ access (threads st u) = Some (s, w) /\ v || w = true.
