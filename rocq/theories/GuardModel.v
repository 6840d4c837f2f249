(** Signal.inl: copies of signals, reconnection, histories of ConnectionGuards, and the arguments of an emission. *)
From Verif Require Export SignalModel.
Open Scope nat_scope.

(** Signal(const Signal&) 30-34: a new signal; operator=(const Signal&) 191-195: nothing. *)
Definition sig_copy (w : world) (s : nat) : world := sig_new w.
Definition sig_copy_assign (w : world) (d s : nat) : world := w.
(** Connection::Connect 300-305: the former slot is forgotten. *)
Definition conn_connect (w : world) (c : option nat) (s : nat) : outcome (world * option nat) :=
  ' (w, id) <- sig_connect w s ;; let '(c, _) := conn_move (Some id) in Done (w, c).

(** Guards by address; None: destroyed. *)
Definition guards := list (option (option nat)).
Definition guard_at (gs : guards) (g : nat) : outcome (option nat) := o <- vget gs g ;; match o with Some c => Done c | None => Fault FUB end.
Inductive gop :=
| GNew                     (* ConnectionGuard() *)
| GConnect (g s : nat)     (* Connect, 396-400 *)
| GMoveNew (g : nat)       (* ConnectionGuard(ConnectionGuard&&), defaulted *)
| GMoveAssign (g h : nat)  (* operator=(ConnectionGuard&&), 482-491 *)
| GDisconnect (g : nat)    (* 407-410 *)
| GDestroy (g : nat)       (* 381-384 *)
| GClear (s : nat).        (* Clear of a signal *)
Definition gstep (st : world * guards) (o : gop) : outcome (world * guards) :=
  let '(w, gs) := st in
  match o with
  | GNew => Done (w, gs ++ [Some None])
  | GConnect g s => c <- guard_at gs g ;; w <- conn_disconnect w c ;; ' (w, c) <- conn_connect w c s ;; gs <- vset gs g (Some c) ;; Done (w, gs)
  | GMoveNew g => c <- guard_at gs g ;; let '(n, c) := conn_move c in gs <- vset gs g (Some c) ;; Done (w, gs ++ [Some n])
  | GMoveAssign g h =>
    c <- guard_at gs g ;; d <- guard_at gs h ;;
    if g =? h then Done (w, gs)
    else w <- conn_disconnect w c ;; let '(c, d) := conn_move d in gs <- vset gs h (Some d) ;; gs <- vset gs g (Some c) ;; Done (w, gs)
  | GDisconnect g => c <- guard_at gs g ;; w <- conn_disconnect w c ;; Done (w, gs)
  | GDestroy g => c <- guard_at gs g ;; w <- guard_destroy w c ;; gs <- vset gs g None ;; Done (w, gs)
  | GClear s => w <- sig_clear w s ;; Done (w, gs)
  end.
Fixpoint ghistory (st : world * guards) (ops : list gop) : outcome (world * guards) :=
  match ops with [] => Done st | o :: ops => st <- gstep st o ;; ghistory st ops end.

(** ** The arguments of an emission, operator()(Args... args) 179-183 and the callbacks.
    A parameter of Signal<Args...> is a value that can be copied, one that can only be moved, T&, const T& or T&&. *)
Inductive mode := PValue | PMoveOnly | PLRef | PConstRef | PRRef.
(** The callbacks are called with lvalues: a move-only value or T&& cannot be initialised from them. *)
Definition emission_compiles (ms : list mode) : bool := forallb (fun m => match m with PMoveOnly | PRRef => false | _ => true end) ms.
Section Arguments.
  Context {V : Type} (moved : V -> V).
  (** std::function<void(Args...)>: its parameters, forwarded to the callable (or by the lambdas of Connect, 113-167, to the method). What the callable
      receives, and what its parameters leave behind: an own object for a value, moved from and dropped; the argument itself for a reference. *)
  Definition receive (m : mode) (arg : V) : V * V :=
    match m with
    | PValue | PMoveOnly => let parameter := arg in let '(received, dropped) := (parameter, moved parameter) in (received, dropped)
    | _ => (arg, arg)
    end.
  (** The argument after the callable, that left [after] in its parameter. *)
  Definition left_by (m : mode) (arg after : V) : V := match m with PLRef | PRRef => after | _ => arg end.
  (** [f id values]: what the callback of slot [id] leaves in its parameters. *)
  Fixpoint deliver (ms : list mode) (f : nat -> list V -> list V) (ids : list nat) (args : list V) : list (nat * list V) * list V :=
    match ids with
    | [] => ([], args)
    | id :: ids =>
      let received := map (fun '(m, a) => fst (receive m a)) (combine ms args) in
      let args := map (fun '(m, (a, b)) => left_by m a b) (combine ms (combine args (f id received))) in
      let '(r, args) := deliver ms f ids args in ((id, received) :: r, args)
    end.
End Arguments.

(** A callback that uses its captures before each thing it does: they are part of the slot, which m_slots owns (179-183 holds no reference during the call;
    what Disconnect 312-317 locks is released when it returns). *)
Fixpoint run_captured (id : nat) (acts : list action) (w : world) : outcome world :=
  match acts with [] => Done w | a :: acts => require (owned w id) ;;; w <- simple_action w a ;; run_captured id acts w end.
