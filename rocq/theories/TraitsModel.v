(** Model of FunctionTraits.hpp (17-262) and TypeTraits.hpp (17-164): templates as functions on a syntax of types.
    An ill-formed instantiation (no matching specialisation, ambiguous ones, failing static_assert) is [None]. *)
From Verif Require Import Base CInt TypeListModel.
Open Scope nat_scope.

(** ** Types *)
Inductive refq := RNone | RLvalue | RRvalue.
(** [Ty const volatile base]. Functions carry a trailing ellipsis (variadic), cv-qualifiers, a ref-qualifier and noexcept. *)
Inductive ty := Ty (c v : bool) (b : base)
with base :=
  | BScalar (n : nat)      (* void, arithmetic types, enumerations *)
  | BClass (n : nat)
  | BPointer (t : ty)
  | BLRef (t : ty)
  | BRRef (t : ty)
  | BFunction (f : fn)
  | BMember (class : nat) (f : fn)     (* pointer to member function *)
  | BField (class : nat) (t : ty)      (* pointer to data member *)
  | BArray (t : ty)
with fn := Fn (ret : ty) (args : list ty) (variadic c v : bool) (r : refq) (ne : bool).
Notation plain_ty b := (Ty false false b).
Definition plain_fn (ret : ty) (args : list ty) : fn := Fn ret args false false false RNone false.

(** What decltype(&T::operator()) sees in a class: nothing, one function, or something it cannot name (overloads, a template, a private one). *)
Inductive call_operator := NoOperator | OneOperator (f : fn) | Unnameable.

Section Classes.
  Context (operator : nat -> call_operator).

  (** ** FunctionTraits (17-133): a specialisation derives from another instance, or defines the members. *)
  Inductive instance := Inherits (t : ty) | Defines (ret : ty) (args : list ty) | IllFormed.
  (** 17-20, the primary template *)
  Definition primary (b : base) : instance :=
    match b with
    | BClass n => match operator n with OneOperator f => Inherits (plain_ty (BMember n f)) | _ => IllFormed end
    | _ => IllFormed
    end.
  Definition specialisation (t : ty) : instance :=
    match t with
    | Ty true v b => Inherits (Ty false v b) (* 120-121 *)
    | Ty false true b => primary b
    | Ty false false b =>
      match b with
      | BFunction (Fn ret args false false false RNone false) => Defines ret args (* 22-40 *)
      | BPointer (Ty false false (BFunction (Fn ret args false false false RNone _))) => Inherits (plain_ty (BFunction (plain_fn ret args))) (* 42-46 *)
      | BMember _ (Fn ret args false _ _ _ _) => Inherits (plain_ty (BFunction (plain_fn ret args))) (* 48-118, the 24 combinations of qualifiers *)
      | BLRef (Ty true v b) => Inherits (Ty false v b) (* 123-124, more specialised than 129-130 *)
      | BLRef t => Inherits t
      | BRRef (Ty true v b) => Inherits (Ty false v b)
      | BRRef t => Inherits t
      | _ => primary b
      end
    end.
  (** The chain of base classes; [fuel] bounds its length. *)
  Fixpoint instantiate (fuel : nat) (t : ty) : option (ty * list ty) :=
    match fuel with
    | O => None
    | S fuel => match specialisation t with Inherits t => instantiate fuel t | Defines ret args => Some (ret, args) | IllFormed => None end
    end.
  (** reference, const, class, member pointer, function: no chain is longer. *)
  Definition FunctionTraits (t : ty) : option (ty * list ty) := instantiate 6 t.
  Definition ReturnType (t : ty) : option ty := option_map fst (FunctionTraits t).
  Definition ArgCount (t : ty) : option nat := option_map (fun p => length (snd p)) (FunctionTraits t).
  (** 31-39 *)
  Definition ArgType (t : ty) (i : nat) : option ty :=
    match FunctionTraits t with Some (_, args) => if i <? length args then ListAt args i else None | None => None end.

  (** ** IsFunctor (137-150) *)
  Definition is_function (t : ty) : bool := match t with Ty _ _ (BFunction _) => true | _ => false end.
  (** cv-qualified pointers are pointers. *)
  Definition is_member_function_pointer (t : ty) : bool := match t with Ty _ _ (BMember _ _) => true | _ => false end.
  Definition has_call_operator (t : ty) : bool := match t with Ty _ _ (BClass n) => match operator n with OneOperator _ => true | _ => false end | _ => false end.
  Definition count_true (l : list bool) : nat := length (filter (fun b => b) l).
  (** The primary template when no specialisation matches; two of them are ambiguous. *)
  Definition IsFunctor (t : ty) : option bool :=
    match count_true [is_function t; is_member_function_pointer t; has_call_operator t] with 0 => Some false | 1 => Some true | _ => None end.
End Classes.

(** ** OverloadResolver (156-254) *)
(** The argument: a set of functions; [owner] is the class of a member function, None for functions and static members. *)
Record candidate := mkCandidate { owner : option nat; signature : fn }.
Record overload_set := mkSet { functions : list candidate; templates : bool }.
(** The fourteen operator(): member or not, const, ref-qualifier, noexcept. *)
Record pattern := mkPattern { p_member : bool; p_const : bool; p_ref : refq; p_noexcept : bool }.
Definition patterns : list pattern :=
  [mkPattern true false RNone false; mkPattern true false RLvalue false; mkPattern true false RRvalue false;
   mkPattern true false RNone true; mkPattern true false RLvalue true; mkPattern true false RRvalue true;
   mkPattern true true RNone false; mkPattern true true RLvalue false; mkPattern true true RRvalue false;
   mkPattern true true RNone true; mkPattern true true RLvalue true; mkPattern true true RRvalue true;
   mkPattern false false RNone false; mkPattern false false RNone true].
Definition refq_eqb (a b : refq) : bool := match a, b with RNone, RNone | RLvalue, RLvalue | RRvalue, RRvalue => true | _, _ => false end.

Section Overload.
  Context (same : ty -> ty -> bool).
  Fixpoint same_list (a b : list ty) : bool := match a, b with [], [] => true | x :: a, y :: b => same x y && same_list a b | _, _ => false end.
  Definition is_member (c : candidate) : bool := match owner c with Some _ => true | None => false end.
  (** Deduction of R and T against one function: identical but for noexcept, which may be dropped (function pointer conversion). *)
  Definition deduces (Args : list ty) (p : pattern) (f : candidate) : bool :=
    match signature f with
    | Fn _ args variadic c v r ne =>
      Bool.eqb (is_member f) (p_member p) && same_list args Args && negb variadic && Bool.eqb c (p_const p) && negb v && refq_eqb r (p_ref p) && (ne || negb (p_noexcept p))
    end.
  Definition exact (p : pattern) (f : candidate) : bool := match signature f with Fn _ _ _ _ _ _ ne => Bool.eqb ne (p_noexcept p) end.
  (** [temp.deduct.call]: an overload set with a template, or several functions for which deduction succeeds, make a non-deduced context. *)
  Definition viable (Args : list ty) (s : overload_set) (p : pattern) : option candidate :=
    if templates s then None else match filter (deduces Args p) (functions s) with [f] => Some f | _ => None end.
  (** The operator() whose conversion is the identity are better than those that drop noexcept; two best ones are ambiguous. *)
  Definition Overload (Args : list ty) (s : overload_set) : option candidate :=
    let all := flat_map (fun p => match viable Args s p with Some f => [(exact p f, f)] | None => [] end) patterns in
    let best := filter fst all in
    match (if 0 <? length best then best else all) with [(_, f)] => Some f | _ => None end.
End Overload.

(** ** TypeTraits *)
(** 33-59: the values of the enumerators Count and Max, when there are any; [t] is the underlying type. *)
Definition EnumValueCount (is_enum : bool) (Count Max : option Z) : option Z :=
  match Count, Max with
  | None, None => None
  | Some _, Some _ => None (* both partial specialisations match and none is more specialised *)
  | Some c, None => if is_enum then Some (cast u64 c) else None
  | None, Some m => if is_enum then Some (cast u64 (cast u64 m + 1)) else None
  end.
(** 63-73 *)
Definition FunctionPtr (t : ty) : option ty :=
  match t with Ty false false (BFunction (Fn ret args false false false RNone false)) => Some (plain_ty (BPointer t)) | _ => None end.
(** 78-98: [complete]: the class is defined at the point of instantiation. T* is ill-formed for references. *)
Fixpoint has_size (complete : nat -> bool) (t : ty) : bool :=
  match t with Ty _ _ b => match b with BScalar n => negb (n =? 0) | BClass n => complete n | BFunction _ => false | BArray t => has_size complete t | _ => true end end.
Definition IsComplete (complete : nat -> bool) (t : ty) : option bool :=
  match t with Ty _ _ (BLRef _) | Ty _ _ (BRRef _) => None | _ => Some (has_size complete t) end.
(** 101-109 *)
Definition IsFirstType (same : ty -> ty -> bool) (t : ty) (args : list ty) : bool := match args with x :: _ => same t x | [] => false end.
(** 122-131 *)
Definition PointedType (t : ty) : option ty := match t with Ty _ _ (BPointer t) => Some t | _ => None end.
(** 141-148 *)
Definition remove_reference (t : ty) : ty := match t with Ty _ _ (BLRef t) | Ty _ _ (BRRef t) => t | _ => t end.
Definition remove_cv (t : ty) : ty := match t with Ty _ _ b => Ty false false b end.
Definition RemoveCvRef (t : ty) : ty := remove_cv (remove_reference t).
(** 153-163: whether the member [type] exists. *)
Definition PreventHiddenCopyMove (same : ty -> ty -> bool) (t : ty) (args : list ty) : bool :=
  match args with [a] => negb (same t (RemoveCvRef a)) | _ => true end.
