(** Which constructor of Result an argument selects, and what it makes of it. Result.hpp 67-76, 128-136; Result.inl 35-86, 275-318; Ok and Err: Result.inl 15-31.
    Overload resolution: [over.ics.rank] 3.2 (binding of references), [over.match.best] (non-templates first), [temp.func.order] (a forwarding reference is the least
    specialised). std::is_convertible looks at declarations only; the bodies are instantiated when the constructor is used.
    Simplified: classes other than these convert as [bconv] says, implicitly, in the same way from lvalues and rvalues; E is an object type ([static_assert] 62, 124). *)
From Verif Require Export Base.
Open Scope nat_scope.

(** Types: other classes; void; Result<V, E>; ResultValue<T&>, <const T&> or <T&&> and the same of ResultError. *)
Inductive category := Lvalue | ConstLvalue | Rvalue | ConstRvalue.
Inductive ty := TClass (n : nat) | TVoid | TResult (V E : ty) | TOk (T : ty) (c : category) | TErr (T : ty) (c : category).
Definition cat_eqb (a b : category) : bool := match a, b with Lvalue, Lvalue | ConstLvalue, ConstLvalue | Rvalue, Rvalue | ConstRvalue, ConstRvalue => true | _, _ => false end.
Fixpoint ty_eqb (a b : ty) : bool :=
  match a, b with
  | TClass n, TClass m => n =? m
  | TVoid, TVoid => true
  | TResult V E, TResult V' E' => ty_eqb V V' && ty_eqb E E'
  | TOk T c, TOk T' c' | TErr T c, TErr T' c' => ty_eqb T T' && cat_eqb c c'
  | _, _ => false
  end.
Definition is_void (t : ty) : bool := match t with TVoid => true | _ => false end.

Inductive constructor :=
| FromAny (* Result(T&&) *) | FromValue (* Result(ResultValue<T>) *) | FromError (* Result(ResultError<T>) *)
| ConvertCopy (* Result(const Result<V2, E2>&) *) | ConvertMove (* Result(Result<V2, E2>&&) *) | Copy | Move.
Definition ctor_eqb (a b : constructor) : bool :=
  match a, b with FromAny, FromAny | FromValue, FromValue | FromError, FromError | ConvertCopy, ConvertCopy | ConvertMove, ConvertMove | Copy, Copy | Move, Move => true | _, _ => false end.
Definition movable (c : category) : bool := match c with Rvalue => true | _ => false end.
(** The constructors of Result<V, E> an argument of type [A] can be given to; [converts]: V2 to V and E2 to E, if [A] is Result<V2, E2>. *)
Definition viable (V E A : ty) (c : category) (converts : bool) : list constructor :=
  (if negb (is_void V) && ty_eqb A V && negb (ty_eqb V E) then [FromAny] else []) ++
  match A with
  | TOk T _ => if is_void V then (if is_void T then [FromValue] else []) else [FromValue]
  | TErr _ _ => [FromError]
  | TResult _ _ =>
    (if converts then ConvertCopy :: (if movable c then [ConvertMove] else []) else []) ++
    (if ty_eqb A (TResult V E) then Copy :: (if movable c then [Move] else []) else [])
  | _ => []
  end.
(** What the parameter is: a reference, to rvalues or not, to const or not; or a value. *)
Definition reference (k : constructor) (c : category) : option (bool * bool) :=
  match k with
  | FromAny => Some (match c with Lvalue => (false, false) | ConstLvalue => (false, true) | Rvalue => (true, false) | ConstRvalue => (true, true) end)
  | FromValue | FromError => None
  | ConvertCopy | Copy => Some (false, true)
  | ConvertMove | Move => Some (true, false)
  end.
Definition rvalue (c : category) : bool := match c with Rvalue | ConstRvalue => true | _ => false end.
Definition binds_better (c : category) (k k' : constructor) : bool :=
  match reference k c, reference k' c with
  | Some (rv, const), Some (rv', const') => if Bool.eqb rv rv' then negb const && const' else rvalue c && rv
  | _, _ => false
  end.
Definition template (void : bool) (k : constructor) : bool := match k with Copy | Move => false | FromValue => negb void | _ => true end.
Definition better (void : bool) (c : category) (k k' : constructor) : bool :=
  if binds_better c k k' then true else if binds_better c k' k then false
  else if negb (template void k) then template void k'
  else template void k' && negb (ctor_eqb k FromAny) && ctor_eqb k' FromAny.
Definition select (V E A : ty) (c : category) (converts : bool) : option constructor :=
  let l := viable V E A c converts in find (fun k => forallb (fun k' => ctor_eqb k k' || better (is_void V) c k k') l) l.

Section Types.
Variables (bconv : nat -> nat -> bool) (bdefault : nat -> bool).
(** std::is_convertible_v<A, B>, the category being that of the argument. *)
Fixpoint convertible (A : ty) (c : category) (B : ty) : bool :=
  match B with
  | TClass n => match A with TClass m => bconv m n | _ => false end
  | TVoid => is_void A
  | TOk _ _ | TErr _ _ => ty_eqb A B
  | TResult V E =>
    match A with
    | TVoid => false
    | TResult V2 E2 => match select V E A c (convertible V2 Rvalue V && convertible E2 Rvalue E) with Some _ => true | None => false end
    | _ => match select V E A c false with Some _ => true | None => false end
    end
  end.
Definition converts (V E A : ty) : bool := match A with TResult V2 E2 => convertible V2 Rvalue V && convertible E2 Rvalue E | _ => false end.
Fixpoint default (t : ty) : bool := match t with TClass n => bdefault n | TResult V _ => if is_void V then false else default V | _ => false end.
(** The category of what a converting constructor passes on; that of std::move(error.value) in Result<void, E>. *)
Definition passed (k : constructor) : category := match k with ConvertMove => Rvalue | _ => ConstLvalue end.
Definition moved (c : category) : category := match c with Lvalue | Rvalue => Rvalue | _ => ConstRvalue end.
(** Whether initialising a [B] from an [A] compiles, bodies included. *)
Fixpoint compiles (A : ty) (c : category) (B : ty) : bool :=
  match B with
  | TClass n => match A with TClass m => bconv m n | _ => false end
  | TVoid => false
  | TOk _ _ | TErr _ _ => ty_eqb A B
  | TResult V E =>
    match select V E A c (converts V E A) with
    | None => false
    | Some FromAny | Some Copy | Some Move => true
    | Some FromValue => is_void V || match A with TOk T cT => compiles T cT V | _ => false end
    | Some FromError => match A with TErr T cT => compiles T (if is_void V then moved cT else cT) E | _ => false end
    | Some k => match A with TResult V2 E2 => (is_void V || (default V && compiles V2 (passed k) V)) && compiles E2 (passed k) E | _ => false end
    end
  end.

(** Values. *)
Context {X : Type}.
Variable bmap : nat -> nat -> X -> X.
Inductive val := VUnit | VClass (x : X) | VOk (v : val) | VErr (v : val) | VWrapped (v : val).
(** The object and the types of the objects that were default constructed on the way (and destroyed: variant::emplace). *)
Fixpoint build (A : ty) (c : category) (B : ty) (v : val) : option (val * list ty) :=
  match B with
  | TClass n => match A, v with TClass m, VClass x => if bconv m n then Some (VClass (bmap m n x), []) else None | _, _ => None end
  | TVoid => None
  | TOk _ _ | TErr _ _ => if ty_eqb A B then Some (v, []) else None
  | TResult V E =>
    match select V E A c (converts V E A) with
    | None => None
    | Some FromAny => Some (VOk v, [])
    | Some Copy | Some Move => Some (v, [])
    | Some FromValue =>
      match A, v with
      | TOk T cT, VWrapped w => if is_void V then Some (VOk VUnit, []) else option_map (fun '(w, d) => (VOk w, d)) (build T cT V w)
      | _, _ => None
      end
    | Some FromError =>
      match A, v with
      | TErr T cT, VWrapped w => option_map (fun '(w, d) => (VErr w, d)) (build T (if is_void V then moved cT else cT) E w)
      | _, _ => None
      end
    | Some k =>
      match A with
      | TResult V2 E2 =>
        if is_void V then
          match v with VOk _ => Some (VOk VUnit, []) | VErr w => option_map (fun '(w, d) => (VErr w, d)) (build E2 (passed k) E w) | _ => None end
        else if default V then
          match v with
          | VOk w => option_map (fun '(w, d) => (VOk w, V :: d)) (build V2 (passed k) V w)
          | VErr w => option_map (fun '(w, d) => (VErr w, V :: d)) (build E2 (passed k) E w)
          | _ => None
          end
        else None
      | _ => None
      end
    end
  end.
End Types.
Arguments val : clear implicits.

(** Result(ErrorTag, args...) of [n] arguments: the side initialised. The first gives them to the alternative of the variant; Result<void, E> to std::optional<E>, which has
    constructors of no argument (empty) and one, and of more only for std::in_place (arguments that are std::in_place or std::nullopt are not considered).
    [constructible n]: whether E has a constructor of [n] arguments. *)
Inductive side := Value | Error.
Definition error_tag (void : bool) (constructible : nat -> bool) (n : nat) : option side :=
  if void then match n with 0 => Some Value | 1 => if constructible 1 then Some Error else None | _ => None end
  else if constructible n then Some Error else None.
