(** Model of include/NazaraUtils/Result.hpp and Result.inl.
    A payload is a value of a type [V] or [E]; moving out of a payload [x] leaves [moved x] behind (for instance the empty string).
    A reference parameter is the referenced value with its value category; a function that binds it returns what it leaves there.
    The std::variant may be valueless, which a throwing assignment can cause. Copies of payloads throw when [throws] says so.
    Overload resolution and SFINAE are not modelled. *)
From Verif Require Import Base.

Inductive cat := LV | RV.
(** Constructing an object from the expression of category [c] denoting [x]: the new object and what [x] becomes. *)
Definition take {A} (moved : A -> A) (c : cat) (x : A) : A * A := (x, match c with LV => x | RV => moved x end).

Inductive result (V E : Type) := RVal (v : V) | RErr (e : E) | RValueless.
Arguments RVal {V E} v.  Arguments RErr {V E} e.  Arguments RValueless {V E}.

Section Result.
  Context {V E : Type} (movedV : V -> V) (movedE : E -> E).
  Notation R := (result V E).

  (** Ok(value) / Err(err), Result.inl 15-31, wrap the reference with its category; the constructors from ResultValue<T> / ResultError<T>
      (44-56) forward it. The first is also Result(T&&), 35-40. *)
  Definition from_ok (c : cat) (v : V) : R * V := let '(n, v') := take movedV c v in (RVal n, v').
  Definition from_err (c : cat) (e : E) : R * E := let '(n, e') := take movedE c e in (RErr n, e').
  (** Result(ValueTag / ErrorTag, args...), 58-70, with the constructed payload. *)
  Definition value_tag (v : V) : R := RVal v.
  Definition error_tag (e : E) : R := RErr e.

  (** 125-135 *)
  Definition IsErr (r : R) : bool := match r with RErr _ => true | _ => false end.
  Definition IsOk (r : R) : bool := match r with RVal _ => true | _ => false end.
  (** 259-270 *)
  Definition EnsureError (r : R) : outcome unit := if negb (IsErr r) then Fault FThrow else Done tt.
  Definition EnsureValue (r : R) : outcome unit := if negb (IsOk r) then Fault FThrow else Done tt.
  (** std::get<I>, which throws std::bad_variant_access *)
  Definition get_value (r : R) : outcome V := match r with RVal v => Done v | _ => Fault FThrow end.
  Definition get_error (r : R) : outcome E := match r with RErr e => Done e | _ => Fault FThrow end.
  (** 90-102 *)
  Definition Expect (r : R) : outcome unit := if IsErr r then Fault FThrow else Done tt.
  (** 104-123, 137-149, 173-178: the three overloads return a reference to the payload. *)
  Definition GetError (r : R) : outcome E := EnsureError r ;;; get_error r.
  Definition GetValue (r : R) : outcome V := EnsureValue r ;;; get_value r.
  (** 223-256 *)
  Definition op_bool (r : R) : bool := IsOk r.
  Definition op_star (r : R) : outcome V := GetValue r.
  Definition op_arrow (r : R) : outcome V := GetValue r.
  (** Writing through the reference returned by GetValue() & / GetError() &. *)
  Definition write_value (r : R) (v : V) : outcome R := GetValue r ;;; Done (RVal v).
  Definition write_error (r : R) (e : E) : outcome R := GetError r ;;; Done (RErr e).
  (** What an initialisation from std::move(r).GetValue() leaves in r. *)
  Definition moved_value (r : R) : R := match r with RVal v => RVal (movedV v) | r => r end.
  Definition moved_error (r : R) : R := match r with RErr e => RErr (movedE e) | r => r end.

  (** 153-171; [c] is the category of the result, [cd] that of the default. The value, the result and the default afterwards. *)
  Definition GetValueOr (c : cat) (r : R) (cd : cat) (d : V) : outcome (V * R * V) :=
    if IsOk r then v <- get_value r ;; Done (v, match c with LV => r | RV => moved_value r end, d)
    else let '(n, d') := take movedV cd d in Done (n, r, d').

  (** Defaulted copy and move construction: std::variant copies the alternative, or stays valueless. *)
  Definition copy_construct (r : R) : R := r.
  Definition move_construct (r : R) : R * R := (r, match r with RVal v => RVal (movedV v) | RErr e => RErr (movedE e) | RValueless => RValueless end).
End Result.

(** ** Conversion from Result<V2, E2>, 72-88: [fV], [fE] are the payload conversions. *)
Definition convert {V E V2 E2} (movedV : V2 -> V2) (movedE : E2 -> E2) (fV : V2 -> V) (fE : E2 -> E) (c : cat) (r : result V2 E2) : outcome (result V E * result V2 E2) :=
  if IsOk r then v <- GetValue r ;; Done (RVal (fV v), match c with LV => r | RV => moved_value movedV r end)
  else e <- GetError r ;; Done (RErr (fE e), match c with LV => r | RV => moved_error movedE r end).

(** ** Map, 180-220. The functor is a state transformer: it receives a reference to the value, and returns its result and what it left in the value. *)
(** An exception that leaves a noexcept function. *)
Definition noexcept_if {A} (n : bool) (x : outcome A) : outcome A :=
  match x with Fault FThrow => if n then Fault FTerminate else Fault FThrow | y => y end.
Section Map.
  Context {V W E S : Type} (movedE : E -> E).
  (** [nothrow] is std::is_nothrow_invocable_v<F, ...>; [throws e] tells whether copying the error [e] throws. *)
  Definition Map_const (nothrow : bool) (throws : E -> bool) (r : result V E) (f : V -> S -> outcome (W * S)) (s : S) : outcome (result W E * S) :=
    noexcept_if nothrow (
      if IsOk r then v <- GetValue r ;; ' (w, s') <- f v s ;; Done (value_tag w, s')
      else e <- GetError r ;; if throws e then Fault FThrow else Done (error_tag e, s)).
  Definition Map_move (nothrow : bool) (throws : E -> bool) (r : result V E) (f : V -> S -> outcome (W * V * S)) (s : S) : outcome (result W E * result V E * S) :=
    noexcept_if nothrow (
      if IsOk r then v <- GetValue r ;; ' (w, v', s') <- f v s ;; Done (value_tag w, RVal v', s')
      else e <- GetError r ;; if throws e then Fault FThrow else Done (error_tag e, moved_error movedE r, s)).
End Map.

(** ** Assignment: std::variant's defaulted assignments ([variant.assign]).
    [tc] is whether the copy (move) of this payload throws now. The result is the left object and whether an exception left. *)
Record payload_type := { nothrow_copy : bool; nothrow_move : bool }.
Section Assign.
  Context {V E : Type} (movedV : V -> V) (movedE : E -> E) (TV TE : payload_type).
  (** Emplacing destroys the old alternative first. *)
  Definition emplace (r : result V E) (tc : bool) : result V E * bool := if tc then (RValueless, true) else (r, false).
  Definition assign_copy (l r : result V E) (tc : bool) : result V E * bool :=
    match l, r with
    | _, RValueless => (RValueless, false)
    | RVal _, RVal v => if tc then (l, true) else (RVal v, false)
    | RErr _, RErr e => if tc then (l, true) else (RErr e, false)
    | _, RVal v => if nothrow_copy TV || negb (nothrow_move TV) then emplace (RVal v) tc else if tc then (l, true) else (RVal v, false)
    | _, RErr e => if nothrow_copy TE || negb (nothrow_move TE) then emplace (RErr e) tc else if tc then (l, true) else (RErr e, false)
    end.
  Definition assign_move (l r : result V E) (tc : bool) : (result V E * bool) * result V E :=
    let r' := match r with RVal v => RVal (movedV v) | RErr e => RErr (movedE e) | RValueless => RValueless end in
    match l, r with
    | _, RValueless => ((RValueless, false), RValueless)
    | RVal _, RVal v => if tc then ((l, true), r) else ((RVal v, false), r')
    | RErr _, RErr e => if tc then ((l, true), r) else ((RErr e, false), r')
    | _, RVal _ | _, RErr _ => if tc then ((RValueless, true), r) else ((r, false), r')
    end.
End Assign.

(** ** Result<void, E>, 274-413: a std::optional<E>. *)
Section Void.
  Context {E : Type} (movedE : E -> E).
  Definition void_ok : option E := None.
  (** 280-283: [std::move(error.value)], whatever the category of the reference. *)
  Definition void_from_err (c : cat) (e : E) : option E * E := let '(n, e') := take movedE RV e in (Some n, e').
  (** 286-296 *)
  Definition void_value_tag : option E := None.
  Definition void_error_tag (e : E) : option E := Some e.
  (** 349-358, 403-413 *)
  Definition void_IsErr (r : option E) : bool := match r with Some _ => true | None => false end.
  Definition void_IsOk (r : option E) : bool := negb (void_IsErr r).
  Definition void_op_bool (r : option E) : bool := void_IsOk r.
  Definition void_EnsureError (r : option E) : outcome unit := if negb (void_IsErr r) then Fault FThrow else Done tt.
  (** 314-346; dereferencing an empty optional is undefined *)
  Definition void_GetError (r : option E) : outcome E := void_EnsureError r ;;; match r with Some e => Done e | None => Fault FUB end.
  Definition void_Expect (r : option E) : outcome unit := if void_IsErr r then Fault FThrow else Done tt.
  Definition void_moved_error (r : option E) : option E := match r with Some e => Some (movedE e) | None => None end.
End Void.
(** 299-311 *)
Definition void_convert {E E2} (movedE : E2 -> E2) (fE : E2 -> E) (c : cat) (r : option E2) : outcome (option E * option E2) :=
  if negb (void_IsOk r) then e <- void_GetError r ;; Done (Some (fE e), match c with LV => r | RV => void_moved_error movedE r end)
  else Done (None, r).
(** 362-400 *)
Section VoidMap.
  Context {W E S : Type} (movedE : E -> E).
  Definition void_Map_const (nothrow : bool) (throws : E -> bool) (r : option E) (f : S -> outcome (W * S)) (s : S) : outcome (result W E * S) :=
    noexcept_if nothrow (
      if void_IsOk r then ' (w, s') <- f s ;; Done (value_tag w, s')
      else e <- void_GetError r ;; if throws e then Fault FThrow else Done (error_tag e, s)).
  Definition void_Map_move (nothrow : bool) (throws : E -> bool) (r : option E) (f : S -> outcome (W * S)) (s : S) : outcome (result W E * option E * S) :=
    noexcept_if nothrow (
      if void_IsOk r then ' (w, s') <- f s ;; Done (value_tag w, r, s')
      else e <- void_GetError r ;; if throws e then Fault FThrow else Done (error_tag e, void_moved_error movedE r, s)).
End VoidMap.
(** A functor returning void maps to Result<void, E>: the same branches with the void constructors (190-194, 211-215, 371-375). *)
Section MapToVoid.
  Context {V E S : Type} (movedE : E -> E).
  Definition Map_const_void (nothrow : bool) (throws : E -> bool) (r : result V E) (f : V -> S -> outcome S) (s : S) : outcome (option E * S) :=
    noexcept_if nothrow (
      if IsOk r then v <- GetValue r ;; s' <- f v s ;; Done (void_value_tag, s')
      else e <- GetError r ;; if throws e then Fault FThrow else Done (void_error_tag e, s)).
  Definition void_Map_const_void (nothrow : bool) (throws : E -> bool) (r : option E) (f : S -> outcome S) (s : S) : outcome (option E * S) :=
    noexcept_if nothrow (
      if void_IsOk r then s' <- f s ;; Done (void_value_tag, s')
      else e <- void_GetError r ;; if throws e then Fault FThrow else Done (void_error_tag e, s)).
End MapToVoid.

(** ** NAZARA_TRY and NAZARA_TRY_VALUE, Result.hpp 17-30.
    A function body: steps returning a Result<V, E> whose side effects act on a state; [TryValue] binds the value moved out of the step's result.
    [Return] is the final return expression. All steps share V and E here. *)
Inductive prog (V E S : Type) :=
| Return (f : S -> outcome (result V E * S))
| Try (step : S -> outcome (result V E * S)) (rest : prog V E S)
| TryValue (step : S -> outcome (result V E * S)) (rest : V -> prog V E S).
Arguments Return {V E S}.  Arguments Try {V E S}.  Arguments TryValue {V E S}.
Fixpoint run {V E S} (movedE : E -> E) (p : prog V E S) (s : S) : outcome (result V E * S) :=
  match p with
  | Return f => f s
  | Try step rest =>
    ' (r, s') <- step s ;;
    if negb (IsOk r) then e <- GetError r ;; Done (fst (from_err movedE RV e), s') else run movedE rest s'
  | TryValue step rest =>
    ' (r, s') <- step s ;;
    if negb (IsOk r) then e <- GetError r ;; Done (fst (from_err movedE RV e), s') else v <- GetValue r ;; run movedE (rest v) s'
  end.
(** The same macros in a function returning Result<void, E>. *)
Inductive vprog (V E S : Type) :=
| VReturn (f : S -> outcome (option E * S))
| VTry (step : S -> outcome (option E * S)) (rest : vprog V E S)
| VTryValue (step : S -> outcome (result V E * S)) (rest : V -> vprog V E S).
Arguments VReturn {V E S}.  Arguments VTry {V E S}.  Arguments VTryValue {V E S}.
Fixpoint vrun {V E S} (movedE : E -> E) (p : vprog V E S) (s : S) : outcome (option E * S) :=
  match p with
  | VReturn f => f s
  | VTry step rest =>
    ' (r, s') <- step s ;;
    if negb (void_IsOk r) then e <- void_GetError r ;; Done (fst (void_from_err movedE RV e), s') else vrun movedE rest s'
  | VTryValue step rest =>
    ' (r, s') <- step s ;;
    if negb (IsOk r) then e <- GetError r ;; Done (fst (void_from_err movedE RV e), s') else v <- GetValue r ;; vrun movedE (rest v) s'
  end.
