(** Model of SafeCast, SafeCaster, PointerToInteger, IntegerToPointer and StaticUniquePointerCast
    (include/NazaraUtils/Algorithm.inl 35-57, 148-162, 193-292).
    [debug]: NAZARA_DEBUG is defined and NDEBUG is not. The forwarding parameter From&& makes From a reference type for lvalues, and
    std::is_integral_v, is_enum_v and is_floating_point_v are false for reference types. *)
From Coq Require Import QArith Qround.
From Verif Require Import Base CInt.
Open Scope Z_scope.

Inductive category := Rvalue | Lvalue.
Definition by_value (c : category) : bool := match c with Rvalue => true | Lvalue => false end.

(** ** Integers and enumerations *)
(** Integral types. *)
Inductive aty := AInt (t : ity) | ABool.
Definition is_signed (a : aty) : bool := match a with AInt t => sgn t | ABool => false end.
Definition sizeof (a : aty) : Z := match a with AInt t => wid t | ABool => 8 end.
Definition lowest (a : aty) : Z := match a with AInt t => tmin t | ABool => 0 end.
Definition max (a : aty) : Z := match a with AInt t => tmax t | ABool => 1 end.
(** static_cast to an integral type ([conv.integral], [conv.bool]). *)
Definition conv (a : aty) (z : Z) : Z := match a with AInt t => cast t z | ABool => if z =? 0 then 0 else 1 end.

(** 214-226: MaxValueType, MinValueType and the three assertions, [From] being an integral type. *)
Definition check_integral (F T : aty) (v : Z) : outcome unit :=
  let same_narrowing := Bool.eqb (is_signed F) (is_signed T) && (sizeof F >? sizeof T) in
  let MaxValueType := if (negb (is_signed F) && is_signed T) || same_narrowing then F else T in
  let MinValueType := if (is_signed F && negb (is_signed T)) || same_narrowing then F else T in
  assert (is_signed T || (v >=? 0)) ;;;
  assert (conv MaxValueType v <=? conv MaxValueType (max T)) ;;;
  assert (conv MinValueType v >=? conv MinValueType (lowest T)).

(** To integral, From integral or a reference to one. *)
Definition safe_cast_arith (debug : bool) (c : category) (F T : aty) (v : Z) : outcome Z :=
  (if debug && by_value c then check_integral F T v else Done tt) ;;; Done (conv T v).
(** The types of C73: integral, or an enumeration of given underlying type. *)
Inductive ty := TArith (a : aty) | TEnum (u : ity).
Definition SafeCast (debug : bool) (c : category) (F T : ty) (v : Z) : outcome Z :=
  match T, F with
  | TArith t, TArith f => safe_cast_arith debug c f t v
  | TArith t, TEnum u => (* 203-206: the static_cast is a prvalue *)
    if debug && by_value c then safe_cast_arith debug Rvalue (AInt u) t v else Done (conv t v)
  | TEnum u, TArith f => (* 228-231: [value] is an lvalue there *)
    if debug then (r <- safe_cast_arith debug Lvalue f (AInt u) v ;; Done (cast u r)) else Done (cast u v)
  | TEnum u, TEnum _ => Done (cast u v)
  end.
(** 281-285 and 47-51: the conversion operator casts the reference member, an lvalue. *)
Definition SafeCaster (debug : bool) (c : category) (F T : ty) (v : Z) : outcome Z := SafeCast debug Lvalue F T v.
(** 148-162; addresses are std::uintptr_t values. *)
Definition IntegerToPointer (debug : bool) (F : ity) (v : Z) : outcome Z := SafeCast debug Lvalue (TArith (AInt F)) (TArith (AInt u64)) v.
Definition PointerToInteger (debug : bool) (T : ity) (address : Z) : outcome Z := SafeCast debug Rvalue (TArith (AInt u64)) (TArith (AInt T)) address.

(** ** Floating point to integer (207-213) *)
(** A float of [p] bits of precision (24 or 53) is a rational number, an infinity or NaN. *)
Inductive float := Fin (q : Q) | Inf | Nan.
Definition truncate (q : Q) : Z := if Qle_bool 0 q then Qfloor q else Qceiling q.
(** static_cast<t>(value): undefined when the truncated value does not fit ([conv.fpint]). *)
Definition float_to_int (t : ity) (v : float) : outcome Z :=
  match v with Fin q => let z := truncate q in require (in_range t z) ;;; Done z | _ => Fault FUB end.
(** static_cast<From>(max): round to nearest; [2^k - 1] is exact up to [p] bits and rounds up beyond. *)
Definition float_max (p : Z) (t : ity) : Z := let k := wid t - (if sgn t then 1 else 0) in if k <=? p then 2 ^ k - 1 else 2 ^ k.
Definition float_eq (v : float) (z : Z) : bool := match v with Fin q => Qeq_bool q (inject_Z z) | _ => false end.
Definition float_le (v : float) (z : Z) : bool := match v with Fin q => Qle_bool q (inject_Z z) | _ => false end.
Definition float_ge (v : float) (z : Z) : bool := match v with Fin q => Qle_bool (inject_Z z) q | _ => false end.
Definition safe_cast_float (debug : bool) (c : category) (p : Z) (T : ity) (v : float) : outcome Z :=
  (if debug && by_value c then
     l <- float_to_int i64 v ;; assert (float_eq v l) ;;; assert (float_le v (float_max p T)) ;;; assert (float_ge v (tmin T))
   else Done tt) ;;;
  float_to_int T v.

(** ** Pointers and references to polymorphic classes (245-275) *)
Section Classes.
  (** [derives x y]: the class [x] is [y] or derives from it. *)
  Context {C : Type} (derives : C -> C -> bool).
  Inductive cty := CClass (c : C) | CPointer (c : C) | CReference (c : C).
  (** std::is_base_of_v: only for classes. *)
  Definition is_base_of (x y : cty) : bool := match x, y with CClass b, CClass d => derives d b | _, _ => false end.
  (** std::is_polymorphic_v, for a hierarchy of polymorphic classes. *)
  Definition is_polymorphic (x : cty) : bool := match x with CClass _ => true | _ => false end.
  (** static_cast from a base to a derived class: undefined when the object is not one. *)
  Definition static_downcast (to dynamic : C) : outcome unit := require (derives dynamic to).
  (** SafeCast<D*>(b) and SafeCast<D&>(b) for an object of class [dynamic]; the base and derived types differ. *)
  Definition safe_downcast (mk : C -> cty) (debug : bool) (from to dynamic : C) : outcome unit :=
    (if debug && (is_base_of (mk from) (mk to) && is_polymorphic (mk from)) then assert (derives dynamic to) else Done tt) ;;;
    static_downcast to dynamic.
  (** 287-291 *)
  Definition StaticUniquePointerCast (debug : bool) (from to dynamic : C) : outcome unit := safe_downcast CPointer debug from to dynamic.
End Classes.
