(** C++ integer types: ranges, conversions, integral promotions and arithmetic with overflow. *)
From Verif Require Import Base.
Open Scope Z_scope.

Record ity := mkIty { sgn : bool; wid : Z }.

Definition u8 := mkIty false 8.    Definition i8 := mkIty true 8.
Definition u16 := mkIty false 16.  Definition i16 := mkIty true 16.
Definition u32 := mkIty false 32.  Definition i32 := mkIty true 32.
Definition u64 := mkIty false 64.  Definition i64 := mkIty true 64.

Definition unsigned_types := [u8; u16; u32; u64].
Definition signed_types := [i8; i16; i32; i64].
Definition int_types := unsigned_types ++ signed_types.

Definition tmin (t : ity) : Z := if sgn t then - 2 ^ (wid t - 1) else 0.
Definition tmax (t : ity) : Z := if sgn t then 2 ^ (wid t - 1) - 1 else 2 ^ wid t - 1.
Definition in_range (t : ity) (z : Z) : bool := (tmin t <=? z) && (z <=? tmax t).

(** Conversion of the integer [z] to type [t] (modular, [conv.integral]). *)
Definition cast (t : ity) (z : Z) : Z :=
  let m := z mod 2 ^ wid t in
  if sgn t then (if m <? 2 ^ (wid t - 1) then m else m - 2 ^ wid t) else m.

(** Integral promotion ([conv.prom]): narrower than int becomes int. *)
Definition promote (t : ity) : ity := if wid t <? 32 then i32 else t.

(** Result of an arithmetic operation whose operands have type [t]: computed in the promoted type;
    unsigned arithmetic wraps, signed overflow is undefined. *)
Definition arith (t : ity) (z : Z) : outcome Z :=
  let p := promote t in
  if sgn p then (if in_range p z then Done z else Fault FUB) else Done (cast p z).

(** std::make_unsigned_t *)
Definition make_unsigned (t : ity) : ity := mkIty false (wid t).

(** C++ integer division truncates towards zero; division by zero is undefined, and so are quotient and remainder when the quotient is not
    representable ([expr.mul]): the least value divided by -1. *)
Definition cdiv (t : ity) (a b : Z) : outcome Z :=
  if b =? 0 then Fault FUB else arith t (Z.quot a b).
Definition crem (t : ity) (a b : Z) : outcome Z :=
  if b =? 0 then Fault FUB else _q <- arith t (Z.quot a b) ;; arith t (Z.rem a b).
