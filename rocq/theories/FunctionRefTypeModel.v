(** Model of what FunctionRef<Ret(Args...)> can be constructed from (FunctionRef.hpp 25, FunctionRef.inl 17-27): the constraint of the constructor, whether its
    body compiles, and which function call operator a later call reaches. Parameter types are those of the signature on both sides; the result types, and which
    of them convert to each other, are parameters. Volatile is not modelled. *)
From Verif Require Import Base.

Inductive ref_qualifier := NoRef | LRef | RRef.
Section FunctionRefType.
  Context {T : Type}.
  (** A result type: void, or another one. *)
  Definition ret := option T.
  (** A function call operator taking the parameters of the signature; [m_id] tells it from the others. *)
  Record member := { m_id : nat; m_const : bool; m_ref : ref_qualifier; m_ret : ret }.
  Inductive callable :=
  | Function (r : ret)          (* a function, always an lvalue *)
  | Pointer (r : ret)           (* a pointer to a function: an object *)
  | Class (ms : list member).   (* closures, function objects, std::function and FunctionRefs of another signature *)
  (** An expression: its type without const, constness and value category. *)
  Record arg := { a_type : callable; a_const : bool; a_rvalue : bool }.

  (** *** Calling it: overload resolution on the implicit object parameter, [over.match.funcs], [over.ics.rank] 3.2 *)
  Definition viable (is_const rvalue : bool) (m : member) : bool :=
    (m_const m || negb is_const) &&
    match m_ref m with NoRef => true | LRef => negb rvalue || m_const m | RRef => rvalue end.
  Definition better (rvalue : bool) (m n : member) : bool :=
    match m_ref m, m_ref n with
    | RRef, LRef => rvalue
    | LRef, RRef => false
    | _, _ => negb (m_const m) && m_const n
    end.
  Definition select (is_const rvalue : bool) (ms : list member) : option member :=
    let vs := filter (viable is_const rvalue) ms in
    match filter (fun m => forallb (fun n => (m_id m =? m_id n) || better rvalue m n) vs) vs with
    | [m] => Some m
    | _ => None
    end.
  (** std::invoke on an expression: which member (0 for functions), and the type of the result *)
  Definition invoke_type (c : callable) (is_const rvalue : bool) : option (nat * ret) :=
    match c with
    | Function r | Pointer r => Some (0, r)
    | Class ms => match select is_const rvalue ms with Some m => Some (m_id m, m_ret m) | None => None end
    end.

  Context (converts : T -> T -> bool).
  (** std::is_invocable_r_v<Ret, F&&, Args...>: anything can be discarded for void *)
  Definition accepted (Ret : ret) (a : arg) : bool :=
    match invoke_type (a_type a) (a_const a) (a_rvalue a) with
    | Some (_, r) => match Ret, r with None, _ => true | Some _, None => false | Some t, Some u => converts u t end
    | None => false
    end.
  (** 21: reinterpret_cast<void*> cannot remove the const of a pointer to an object. 24: [f] is invoked as an lvalue, and the return statement of a function
      returning void takes an expression of type void only. *)
  Definition body_compiles (Ret : ret) (a : arg) : bool :=
    negb (a_const a) &&
    match invoke_type (a_type a) false false with
    | Some (_, r) => match Ret, r with None, None => true | Some t, Some u => converts u t | _, _ => false end
    | None => false
    end.
  Definition constructs (Ret : ret) (a : arg) : bool := accepted Ret a && body_compiles Ret a.
  (** What a call of the FunctionRef reaches. *)
  Definition reaches (a : arg) : option nat := option_map fst (invoke_type (a_type a) false false).
  (** What calling the argument itself reaches. *)
  Definition direct (a : arg) : option nat := option_map fst (invoke_type (a_type a) (a_const a) (a_rvalue a)).
End FunctionRefType.
Arguments ret T : clear implicits.  Arguments member T : clear implicits.  Arguments callable T : clear implicits.  Arguments arg T : clear implicits.
