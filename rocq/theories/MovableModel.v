(** Model of include/NazaraUtils/MovableValue.hpp/.inl (MovableLiteral, MovableValue) and MovablePtr.hpp/.inl.
    An object is its m_value. Functions that take a reference return what they leave in the referenced object.
    Overload resolution is applied by hand and explained at each function. *)
From Verif Require Import Base.

Section Literal.
  (** [T] is an integral, enumeration or pointer type (a non-type template parameter), so moving a T copies it. *)
  Context {T : Type} (DefaultValue : T).
  (** MovableValue.inl 9-20 *)
  Definition lit_default : T := DefaultValue.
  Definition lit_of_value (value : T) : T := value.
  (** 23-27: the new object and the source. *)
  Definition lit_move_construct (val : T) : T * T := (val, DefaultValue).
  (** 29-63: Get and the conversions give access to m_value. *)
  Definition lit_get (v : T) : T := v.
  (** 65-71: [std::move(value)] of a T copies it; a non-const lvalue MovableLiteral also comes here, through operator T&&. The target and the source. *)
  Definition lit_assign_value (this value : T) : T * T := (value, value).
  (** 73-78: std::swap. *)
  Definition lit_move_assign (this val : T) : T * T := (val, this).
  (** The defaulted copies. *)
  Definition lit_copy_construct (val : T) : T * T := (val, val).
  Definition lit_copy_assign (this val : T) : T * T := (val, val).
End Literal.

Section Pointer.
  (** A pointer is [None] for nullptr. MovablePtr.inl 15-26, 46-59 *)
  Context {A : Type}.
  Definition ptr_of_value (p : option A) : option A := p.
  Definition ptr_move_construct (p : option A) : option A * option A := (p, None).
  Definition ptr_assign_value (this value : option A) : option A := value.
  Definition ptr_move_assign (this p : option A) : option A * option A := (p, this).
  Definition ptr_get (p : option A) : option A := p.
End Pointer.

Section Value.
  (** Moving out of a T holding [x] leaves [moved x]. *)
  Context {T : Type} (moved : T -> T).
  Inductive category := ConstLvalue | Lvalue | Rvalue.
  (** MovableValue.inl 82-87: std::forward. *)
  Definition val_of (c : category) (x : T) : T * T := (x, match c with Rvalue => moved x | _ => x end).
  (** 89-93 *)
  Definition val_move_construct (x : T) : T * T := (x, moved x).
  (** 131-137: [std::move(value)]; a const lvalue is copied, a non-const lvalue is moved from. *)
  Definition val_assign_value (c : category) (this x : T) : T * T := (x, match c with ConstLvalue => x | _ => moved x end).
  (** Assignment from a MovableValue: a const lvalue selects the defaulted copy assignment, a non-const lvalue the template above
      (exact match, and T& is assignable from it through operator T&), an rvalue the move assignment (139-144). *)
  Definition val_assign (c : category) (this x : T) : T * T :=
    match c with
    | ConstLvalue => (x, x)
    | Lvalue => val_assign_value Lvalue this x
    | Rvalue => (x, moved x)
    end.
End Value.
