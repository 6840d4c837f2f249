(** Model of NazaraOffsetOf (OffsetOf.hpp 15-28) and of the types of AccessByOffset (Algorithm.inl 69-99).

    The macro is [Detail::OffsetOf<decltype(GetClassType(&type::member)), decltype(GetMemberType(&type::member)), &type::member>()].
    What it gives depends on the type of [&type::member], on the deduction of the two template functions, on the conversion of
    the pointer to member to the template parameter, and on the evaluation of the body.  None: the program does not compile.

    Classes are given with the offsets the implementation has chosen for bases and members: nothing is assumed about the layout.
    Not modelled: access control, virtual bases, using-declarations, member names that differ between overloads. *)
From Coq Require Import List Bool Arith ZArith String.
Import ListNotations.
Open Scope Z_scope.

Definition name := string.

(** ** Types *)
Inductive ty :=
| TyScalar (k : nat)                    (* arithmetic, enumeration and pointer types *)
| TyClass (k : nat)
| TyArray (e : ty) (n : nat)
| TyFunction (k : nat).
Record qty := Q { q_const : bool; q_volatile : bool; q_ty : ty }.

(** Members: what is declared under a name. *)
Inductive entity :=
| EData (t : qty) (offset : Z)
| EBitField
| EReference
| EStatic (t : qty)
| EFunction (k : nat).

Inductive cls := Class (abstract : bool) (bases : list (Z * cls)) (members : list (name * entity)).
Definition c_abstract (c : cls) := let 'Class a _ _ := c in a.
Definition c_members (c : cls) := let 'Class _ _ m := c in m.

Fixpoint declared (n : name) (l : list (name * entity)) : option entity :=
  match l with [] => None | (n', e) :: l => if String.eqb n n' then Some e else declared n l end.

(** Name lookup of [type::member]: the class itself, else the bases ([class.member.lookup]); each result comes with the class of which the
    entity is a direct member. *)
Fixpoint lookup (c : cls) (n : name) : list (cls * entity) :=
  let 'Class _ bs ms := c in
  match declared n ms with
  | Some e => [(c, e)]
  | None => (fix go (l : list (Z * cls)) := match l with [] => [] | (_, b) :: l => lookup b n ++ go l end) bs
  end.

(** ** The type of &type::member ([expr.unary.op]/3): a pointer to member of the class that declares it. *)
Inductive pointer :=
| PData (c : cls) (t : qty) (offset : Z)          (* qty cls::* *)
| PFunction (c : cls) (k : nat)                   (* function cls::* *)
| PObject.                                        (* static members: an ordinary pointer *)
Definition address_of (c : cls) (n : name) : option pointer :=
  match lookup c n with
  | [(d, EData t o)] => Some (PData d t o)
  | [(d, EFunction k)] => Some (PFunction d k)
  | [(_, EStatic _)] => Some PObject
  | [(_, EBitField)] | [(_, EReference)] => None  (* no address; no pointer to member of reference type *)
  | _ => None                                     (* not found, or ambiguous *)
  end.

(** ** Deduction (OffsetOf.hpp 17-18).  The deduced type becomes the return type: substitution fails for arrays and functions,
    and before C++20 for abstract classes. *)
Definition GetClassType (cpp20 : bool) (p : pointer) : option cls :=
  match p with
  | PData c _ _ | PFunction c _ => if negb cpp20 && c_abstract c then None else Some c
  | PObject => None
  end.
Definition returnable (t : ty) : bool := match t with TyArray _ _ | TyFunction _ => false | _ => true end.
Definition is_class (t : ty) : bool := match t with TyClass _ => true | _ => false end.
(** decltype of the call: a prvalue of a type that is not a class loses its qualifiers ([expr.type]/2). *)
Definition prvalue (t : qty) : qty := if is_class (q_ty t) then t else Q false false (q_ty t).
Definition GetMemberType (cpp20 : bool) (p : pointer) : option qty :=
  match p with
  | PData c t _ => if negb (returnable (q_ty t)) then None else Some (prvalue t)
  | PFunction _ _ => None
  | PObject => None
  end.

(** ** The template argument &type::member for the parameter R T::*M (line 20): qualifiers can be added, not removed.  T is the class of the
    pointer, as GetClassType deduces it. *)
Fixpoint ty_eqb (a b : ty) : bool :=
  match a, b with
  | TyScalar i, TyScalar j | TyClass i, TyClass j | TyFunction i, TyFunction j => Nat.eqb i j
  | TyArray a n, TyArray b m => ty_eqb a b && Nat.eqb n m
  | _, _ => false
  end.
Definition converts (from to : qty) : bool :=
  ty_eqb (q_ty from) (q_ty to) && implb (q_const from) (q_const to) && implb (q_volatile from) (q_volatile to).

(** ** The body (line 23), and its use where a constant is needed: reinterpret_cast is not allowed in a constant expression
    ([expr.const]). *)
Inductive node := NullCast | MemberAccess (offset : Z) (on : node) | AddressOf (on : node) | ReinterpretCast (on : node).
Definition body (offset : Z) : node := ReinterpretCast (AddressOf (MemberAccess offset NullCast)).
(** What compilers give: the address of the member in an object at the null address. *)
Fixpoint run (n : node) : Z :=
  match n with NullCast => 0 | MemberAccess o n => run n + o | AddressOf n => run n | ReinterpretCast n => run n end.
Fixpoint constant (n : node) : bool :=
  match n with NullCast => true | MemberAccess _ n => false | AddressOf n => constant n | ReinterpretCast _ => false end.

(** [needs_constant]: used as a template argument, array bound, constexpr initialiser, … *)
Definition NazaraOffsetOf (cpp20 needs_constant : bool) (c : cls) (n : name) : option Z :=
  match address_of c n with
  | Some (PData d t o as p) =>
      match GetClassType cpp20 p, GetMemberType cpp20 p with
      | Some T, Some R => if converts t R then if needs_constant && negb (constant (body o)) then None else Some (run (body o)) else None
      | _, _ => None
      end
  | Some _ => None
  | None => None
  end.

(** Designators such as [m.n] and [m[0]], which offsetof takes: the macro writes [&type::m.n], a member of a pointer. *)
Inductive designator := DName (n : name) | DMember (d : designator) (n : name) | DElement (d : designator) (i : Z).
Definition NazaraOffsetOf_designator (cpp20 needs_constant : bool) (c : cls) (d : designator) : option Z :=
  match d with
  | DName n => NazaraOffsetOf cpp20 needs_constant c n
  | DMember _ _ | DElement _ _ => None
  end.

(** ** AccessByOffset (Algorithm.inl 69-99) *)
Inductive target := LRef (t : qty) | RRef (t : qty) | Ptr (t : qty) | Value (t : qty).
(** The pointer given: to a (const) (volatile) object. *)
Record base_ptr := BP { b_const : bool; b_volatile : bool; b_address : Z }.
Inductive overload := FromVoid | FromConstVoid.
Definition choose (p : base_ptr) : option overload :=
  if b_volatile p then None else if b_const p then Some FromConstVoid else Some FromVoid.
(** reinterpret_cast cannot remove const. *)
Definition reinterpret_ok (from_const : bool) (t : qty) : bool := implb from_const (q_const t).
Definition AccessByOffset_typed (T : target) (p : base_ptr) (offset : Z) : option (target * Z) :=
  match choose p with
  | None => None
  | Some f =>
      let from_const := match f with FromVoid => false | FromConstVoid => true end in
      match T with
      | LRef t => if reinterpret_ok from_const t then Some (LRef t, b_address p + offset) else None
      | Ptr t => if reinterpret_ok from_const t then Some (Ptr t, b_address p + offset) else None
      | RRef _ | Value _ => None
      end
  end.
