(** Model of include/NazaraUtils/FunctionRef.hpp and FunctionRef.inl.
    Callables are objects with a state, at an address; calling one may change its state and gives a result ([call]).
    A callable is [None] once its lifetime has ended. Callables of const type do not compile (FunctionRef.inl 21: reinterpret_cast cannot cast const away). *)
From Verif Require Import Base.

Section FunctionRef.
  Context {S A R : Type} (call : S -> A -> S * R).
  Definition world := list (option S).
  (** m_functor and m_callback; the callback is known by the callable type, [None] when not initialised. *)
  Record fref := mkRef { m_functor : option nat; m_callback : option unit }.
  (** Calling a callable directly. *)
  Definition invoke (w : world) (i : nat) (a : A) : outcome (world * R) :=
    match nth_error w i with
    | Some (Some s) => let '(s', r) := call s a in Done (upd w i (Some s'), r)
    | _ => Fault FUB
    end.
  (** FunctionRef.inl 11-15: m_callback is left uninitialised. *)
  Definition of_nullptr : fref := mkRef None None.
  (** 17-27 *)
  Definition of_callable (i : nat) : fref := mkRef (Some i) (Some tt).
  (** FunctionRef.hpp 27-28, 36-37: defaulted *)
  Definition copy (f : fref) : fref := f.
  (** 29-34 *)
  Definition ref_call (w : world) (f : fref) (a : A) : outcome (world * R) :=
    match m_callback f with
    | None => Fault FUB
    | Some _ => match m_functor f with None => Fault FUB | Some i => invoke w i a end
    end.
  (** 36-40 *)
  Definition to_bool (f : fref) : bool := match m_functor f with None => false | Some _ => true end.

  (** Programs over callables and FunctionRefs, both numbered in order of creation. *)
  Inductive op := ONew (s : S) | OEnd (i : nat) | ORef (i : nat) | ONull | OCopy (j : nat) | OAssign (j k : nat) | OCall (j : nat) (a : A) | ODirect (i : nat) (a : A).
  Record state := mkState { callables : world; refs : list fref; results : list R }.
  Definition step (o : op) (s : state) : outcome state :=
    match o with
    | ONew c => Done (mkState (callables s ++ [Some c]) (refs s) (results s))
    | OEnd i => Done (mkState (upd (callables s) i None) (refs s) (results s))
    | ORef i => Done (mkState (callables s) (refs s ++ [of_callable i]) (results s))
    | ONull => Done (mkState (callables s) (refs s ++ [of_nullptr]) (results s))
    | OCopy j => f <- vget (refs s) j ;; Done (mkState (callables s) (refs s ++ [copy f]) (results s))
    | OAssign j k => f <- vget (refs s) k ;; l <- vset (refs s) j (copy f) ;; Done (mkState (callables s) l (results s))
    | OCall j a => f <- vget (refs s) j ;; ' (w, r) <- ref_call (callables s) f a ;; Done (mkState w (refs s) (results s ++ [r]))
    | ODirect i a => ' (w, r) <- invoke (callables s) i a ;; Done (mkState w (refs s) (results s ++ [r]))
    end.
  Fixpoint run (os : list op) (s : state) : outcome state := match os with [] => Done s | o :: r => s' <- step o s ;; run r s' end.
End FunctionRef.
Arguments op S A : clear implicits.
