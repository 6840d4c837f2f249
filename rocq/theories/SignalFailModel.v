(** Model of Signal::Connect (Signal.inl 80-98) and ConnectionGuard::Connect (Signal.inl 396-400) when memory runs out.
    A signal: m_slots, a HybridVector of capacity 1 (Signal.hpp) with the counter of operations that still succeed (ThrowModel.v), m_slotIterator, and
    whether the function given by the caller still holds its target. Shared pointers are moved without exception. The model also lets the insertion after
    a successful reserve fail, which a std::vector with room does not. *)
From Verif Require Import Base ThrowModel.
From Verif Require SignalModel.

Record fsignal := FSig { f_slots : hst (A := nat); f_iterator : N; f_function : bool }.
Definition f_size (h : hst (A := nat)) : nat := if h_used h then length (h_fallback h) else t_size (h_inline h).
Definition with_left (h : hst (A := nat)) (k : nat) : hst (A := nat) := HS (TS (t_cells (h_inline h)) (t_size (h_inline h)) k) (h_fallback h) (h_used h).

(** m_slots.emplace_back(std::move(tempPtr)), FixedVector.inl 392-402: nothing can throw while there is room inside. *)
Definition f_emplace_back (id : nat) (h : hst (A := nat)) : eff (hst (A := nat)) unit :=
  if negb (h_used h) && (t_size (h_inline h) <? length (t_cells (h_inline h))) then
    match construct (t_cells (h_inline h)) (t_size (h_inline h)) (Some id) with
    | Done m => Val tt (HS (TS m (S (t_size (h_inline h))) (t_left (h_inline h))) (h_fallback h) (h_used h))
    | Fault f => Bad f
    end
  else h_push true id h.

(** Connect(Callback&&) 80-98, for a slot that will be number [id]. *)
Definition f_connect (id : nat) (x : fsignal) : eff fsignal unit :=
  let h := f_slots x in
  let resetIt := (N.of_nat (f_size h) <=? f_iterator x)%N in
  match t_left (h_inline h) with
  | O => Thrown x                                      (* std::make_shared *)
  | S k =>
    match f_emplace_back id (with_left h k) with
    | Val _ h => Val tt (FSig h (if resetIt then N.of_nat (f_size h) else f_iterator x) false)
    | Thrown h => Thrown (FSig h (f_iterator x) false) (* the function was moved to the slot, which ends *)
    | Bad f => Bad f
    end
  end.
(** Connect(const Callback&) 67-70 copies the function, which may throw, and calls the other one with the copy: the function of the caller stays. *)
Definition f_connect_copy (id : nat) (x : fsignal) : eff fsignal unit :=
  match t_left (h_inline (f_slots x)) with
  | O => Thrown x
  | S k =>
    match f_connect id (FSig (with_left (f_slots x) k) (f_iterator x) true) with
    | Val _ y => Val tt (FSig (f_slots y) (f_iterator y) (f_function x))
    | Thrown y => Thrown (FSig (f_slots y) (f_iterator y) (f_function x))
    | Bad f => Bad f
    end
  end.

(** ConnectionGuard::Connect, the Connect of the signal having thrown: m_connection was disconnected and is not assigned.
    Connection::Connect (301-304) calls the signal first, so that nothing happens to the connection. *)
Definition guard_connect_failing (w : SignalModel.world) (g : option nat) : outcome (SignalModel.world * option nat) :=
  w <- SignalModel.conn_disconnect w g ;; Done (w, g).
Definition conn_connect_failing (w : SignalModel.world) (c : option nat) : outcome (SignalModel.world * option nat) := Done (w, c).
