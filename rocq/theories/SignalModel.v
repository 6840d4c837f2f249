(** Model of Signal.hpp / Signal.inl. m_slots is the HybridVector<SlotPtr, 1> of VectorModel; a SlotPtr is the number of a slot object, and a
    null pointer is a moved-from value. A slot object lives as long as some SlotPtr holds it.
    Callbacks: what a callback does to signals is a list of actions, given by [beh] from everything that happened before and the slot being called.
    Simplifications: callbacks do not throw, and do not destroy or move a signal; the arguments of the emission are not modelled; a callback that
    disconnects itself destroys the std::function being executed, which is left to the callback (it must not touch its captures any more). *)
From Verif Require Export Base CellModel VectorModel SignalSpec.
Open Scope nat_scope.

(** Signal.hpp 59-69 (the callback is represented by the slot's number) *)
Record slotobj := Slot { slot_signal : nat; slot_index : nat }.
(** Signal.hpp 73-74 *)
Record sigobj := Sig { m_slots : fvec nat; m_slotIterator : N }.
(** Signals by address (None: destroyed), slot objects, inline storage of destroyed signals, and the history (ghost). *)
Record world := W { sigs : list (option sigobj); heap : list slotobj; leaked : list (cell nat); trace : list event }.

Inductive action := ADisconnect (c : nat) | AConnect (s : nat) | AClear (s : nat) | AEmit (s : nat).

Definition two64 : N := 18446744073709551616.
(** -- and ++ on std::size_t *)
Definition dec (n : N) : N := if (n =? 0)%N then (two64 - 1)%N else (n - 1)%N.
Definition inc (n : N) : N := if (n + 1 =? two64)%N then 0%N else (n + 1)%N.

Definition sig_at (w : world) (s : nat) : outcome sigobj := o <- vget (sigs w) s ;; match o with Some x => Done x | None => Fault FUB end.
Definition sig_put (w : world) (s : nat) (x : sigobj) : outcome world := l <- vset (sigs w) s (Some x) ;; Done (W l (heap w) (leaked w) (trace w)).
Definition log (w : world) (e : event) : world := W (sigs w) (heap w) (leaked w) (trace w ++ [e]).
(** Write a field of a slot object through a SlotPtr. *)
Definition set_slot (w : world) (o : option nat) (f : slotobj -> slotobj) : outcome world :=
  match o with
  | None => Fault FUB
  | Some id => x <- vget (heap w) id ;; h <- vset (heap w) id (f x) ;; Done (W (sigs w) h (leaked w) (trace w))
  end.
Definition set_index (i : nat) (x : slotobj) : slotobj := Slot (slot_signal x) i.
Definition set_signal (s : nat) (x : slotobj) : slotobj := Slot s (slot_index x).

(** Some SlotPtr holds the slot (what weak_ptr::expired negates). *)
Definition cell_holds (id : nat) (c : cell nat) : bool := match c with Obj (Some k) => k =? id | _ => false end.
Definition value_holds (id : nat) (o : option nat) : bool := match o with Some k => k =? id | None => false end.
Definition owned (w : world) (id : nat) : bool :=
  existsb (fun o => match o with Some x => existsb (cell_holds id) (m_data (m_slots x)) || existsb (value_holds id) (fallback (m_slots x)) | None => false end) (sigs w)
  || existsb (cell_holds id) (leaked w).

(** Signal() 20-23 *)
Definition new_signal : sigobj := Sig (fv_new 1) 0.

(** Clear 53-57 *)
Definition sig_clear (w : world) (s : nat) : outcome world :=
  x <- sig_at w s ;; v <- fv_clear true (m_slots x) ;; w <- sig_put w s (Sig v 0) ;; Done (log w (EClear s)).

(** Connect 80-98: the world and the slot of the returned connection. *)
Definition sig_connect (w : world) (s : nat) : outcome (world * nat) :=
  x <- sig_at w s ;;
  let size := fv_size true (m_slots x) in
  let resetIt := (N.of_nat size <=? m_slotIterator x)%N in
  let id := length (heap w) in
  ' (v, _) <- fv_emplace_back true 1 (m_slots x) (ByMove id) ;;
  let it := if resetIt then N.of_nat (fv_size true v) else m_slotIterator x in
  b <- fv_back true v ;;
  w <- sig_put (W (sigs w) (heap w ++ [Slot s size]) (leaked w) (trace w)) s (Sig v it) ;;
  match b with None => Fault FUB | Some id => Done (log w (EConnect s id), id) end.

(** [m_slots[dst] = std::move(m_slots[src])] for shared pointers: moving one onto itself leaves it (libstdc++). *)
Definition move_ptr (v : fvec nat) (dst src : nat) : outcome (fvec nat) :=
  if dst =? src then Done v else o <- fv_load true v src ;; v <- fv_store true v dst o ;; fv_store true v src None.

(** Signal::Disconnect 227-261, called by Connection::Disconnect *)
Definition sig_disconnect (w : world) (s : nat) (id : nat) : outcome world :=
  x <- sig_at w s ;;
  slot <- vget (heap w) id ;;
  let v := m_slots x in
  let it := m_slotIterator x in
  let size := fv_size true v in
  assert (slot_index slot <? size) ;;;
  assert (slot_signal slot =? s) ;;;
  if ((N.of_nat size - 1 <=? it) || (it <? N.of_nat (slot_index slot)))%N then
    let j := slot_index slot in
    assert (j <? size) ;;;
    assert (negb (fv_empty true v)) ;;;
    v <- move_ptr v j (size - 1) ;;
    o <- fv_load true v j ;;
    w <- set_slot w o (set_index j) ;;
    v <- fv_pop_back true v ;;
    w <- sig_put w s (Sig v it) ;;
    Done (log w (EDisconnect id))
  else
    let j := slot_index slot in
    let k := N.to_nat it in
    assert (k <? size) ;;;
    assert (j <? size) ;;;
    v <- move_ptr v j k ;;
    o <- fv_load true v j ;;
    w <- set_slot w o (set_index j) ;;
    assert (negb (fv_empty true v)) ;;;
    v <- move_ptr v k (size - 1) ;;
    o <- fv_load true v k ;;
    w <- set_slot w o (set_index k) ;;
    v <- fv_pop_back true v ;;
    w <- sig_put w s (Sig v (dec it)) ;;
    Done (log w (EDisconnect id)).

(** A Connection holds a weak_ptr: nothing, or the number of a slot.
    IsConnected 323-327, Disconnect 312-317 *)
Definition lock (w : world) (c : option nat) : option nat := match c with Some id => if owned w id then Some id else None | None => None end.
Definition IsConnected (w : world) (c : option nat) : bool := match lock w c with Some _ => true | None => false end.
Definition conn_disconnect (w : world) (c : option nat) : outcome world :=
  match lock w c with
  | None => Done w
  | Some id => x <- vget (heap w) id ;; sig_disconnect w (slot_signal x) id
  end.
(** Connection(Connection&&) 274-278, operator=(Connection&&) 335-341: the new value, the source. *)
Definition conn_move (c : option nat) : option nat * option nat := (c, None).

(** ConnectionGuard: ~ConnectionGuard 381-384, Disconnect 407-410, operator=(const Connection&) 445-451, operator=(ConnectionGuard&&) 482-491 on
    two guards, Connect 396-400. *)
Definition guard_destroy (w : world) (g : option nat) : outcome world := conn_disconnect w g.
Definition guard_assign (w : world) (g c : option nat) : outcome (world * option nat) := w <- conn_disconnect w g ;; Done (w, c).
Definition guard_move_assign (w : world) (g h : option nat) : outcome (world * option nat * option nat) :=
  w <- conn_disconnect w g ;; let '(g, h) := conn_move h in Done (w, g, h).
Definition guard_connect (w : world) (g : option nat) (s : nat) : outcome (world * option nat) :=
  w <- conn_disconnect w g ;; ' (w, id) <- sig_connect w s ;; Done (w, Some id).

(** What a callback does, emission of signals aside. *)
Definition simple_action (w : world) (a : action) : outcome world :=
  match a with
  | ADisconnect c => conn_disconnect w (Some c)
  | AConnect s => ' (w, _) <- sig_connect w s ;; Done w
  | AClear s => sig_clear w s
  | AEmit _ => Done w
  end.
Definition set_iterator (w : world) (s : nat) (f : N -> N) : outcome world := x <- sig_at w s ;; sig_put w s (Sig (m_slots x) (f (m_slotIterator x))).

Fixpoint perform (emit : world -> nat -> outcome world) (acts : list action) (w : world) : outcome world :=
  match acts with
  | [] => Done w
  | a :: r => w <- (match a with AEmit t => emit w t | _ => simple_action w a end) ;; perform emit r w
  end.

Section Emission.
Variable beh : list event -> nat -> list action.
(** operator() 179-183 *)
Fixpoint emit_loop (fuel : nat) (w : world) (s : nat) : outcome world :=
  match fuel with
  | O => Fault FDiverge
  | S fuel =>
    x <- sig_at w s ;;
    if (m_slotIterator x <? N.of_nat (fv_size true (m_slots x)))%N then
      o <- fv_at true (m_slots x) (N.to_nat (m_slotIterator x)) ;;
      match o with
      | None => Fault FUB
      | Some id =>
        let w := log w (ECall id) in
        w <- perform (fun w t => w <- set_iterator w t (fun _ => 0%N) ;; emit_loop fuel w t) (beh (trace w) id) w ;;
        w <- set_iterator w s inc ;;
        emit_loop fuel w s
      end
    else Done w
  end.
Definition emit (fuel : nat) (w : world) (s : nat) : outcome world := w <- set_iterator w s (fun _ => 0%N) ;; emit_loop fuel w s.
(** A history at top level. *)
Definition act (fuel : nat) (w : world) (a : action) : outcome world := match a with AEmit s => emit fuel w s | _ => simple_action w a end.
Definition history (fuel : nat) (w : world) (acts : list action) : outcome world := perform (emit fuel) acts w.
End Emission.

Definition start (n : nat) : world := W (repeat (Some new_signal) n) [] [] [].

(** ~Signal() = default *)
Definition sig_destroy (w : world) (s : nat) : outcome world :=
  x <- sig_at w s ;; m <- fv_destroy true (m_slots x) ;; l <- vset (sigs w) s None ;; Done (log (W l (heap w) (leaked w ++ m) (trace w)) (EClear s)).

(** operator=(Signal&&) 204-214. Signals that are destroyed stand as empty vectors. *)
Definition sig_move_assign (w : world) (d s : nat) : outcome world :=
  x <- sig_at w d ;; y <- sig_at w s ;;
  st <- fv_move_assign true 1 (map (fun o => match o with Some x => m_slots x | None => fv_new 1 end) (sigs w)) d s ;;
  vs <- vget st s ;;
  w <- sig_put w s (Sig vs (m_slotIterator y)) ;;
  vd <- vget st d ;;
  w <- sig_put w d (Sig vd (m_slotIterator y)) ;;
  w <- foreach (range 0 (fv_size true vd)) (fun w i => o <- fv_load true vd i ;; set_slot w o (set_signal d)) w ;;
  Done (log w (EMove d s)).
(** Signal(): a signal at an address of its own *)
Definition sig_new (w : world) : world := W (sigs w ++ [Some new_signal]) (heap w) (leaked w) (trace w).
(** Signal(Signal&&) 42-45: the iterator, not initialized, is assigned before it is read. *)
Definition sig_move (w : world) (s : nat) : outcome world := sig_move_assign (sig_new w) (length (sigs w)) s.
