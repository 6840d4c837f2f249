(** Model of include/NazaraUtils/Flags.hpp and Flags.inl (Flags<E>).
    The enumeration E is given by [mx] = Flags<E>::MaxValue (Flags.hpp 56) and [auto] = Flags<E>::AutoFlag (57);
    an enumerator is its integer value, a Flags<E> object is its m_value. The sizes of the types follow a 64-bit GCC/Clang target.
    The selection of MaxValue and AutoFlag through templates and ADL (22-48) is in FlagsConfigModel.v. Not modelled: std::hash. *)
From Verif Require Import Base CInt MathModel.
Open Scope Z_scope.

(** Flags.hpp 59-66 *)
Definition BitField (mx : Z) : ity :=
  let f16 := if 8 <=? mx then u16 else u8 in
  let f32 := if 16 <=? mx then u32 else f16 in
  if 32 <=? mx then u64 else f32.

(** [a << n] with a left operand of the unsigned type [t] (at least as wide as int): undefined from the width on. *)
Definition shl (t : ity) (a n : Z) : outcome Z :=
  require ((0 <=? n) && (n <? wid t)) ;;; Done (cast t (a * 2 ^ n)).
(** [~a] for an operand of type [t]. *)
Definition bnot (t : ity) (a : Z) : Z := cast (promote t) (Z.lnot a).

(** Flags.hpp 100 *)
Definition ValueMask (mx : Z) : outcome Z :=
  s <- shl u64 1 (cast u64 (mx + 1)) ;;
  Done (cast (BitField mx) (cast u64 (s - 1))).

(** Flags.inl 283-289 *)
Definition GetFlagValue (mx : Z) (auto : bool) (e : Z) : outcome Z :=
  if auto then s <- shl u32 1 (cast (BitField mx) e) ;; Done (cast (BitField mx) s)
  else Done (cast (BitField mx) e).

(** 36-40 *)
Definition flags_of_enum := GetFlagValue.
(** 48-51 *)
Definition flags_clear_all (v : Z) : Z := 0.
(** 61-64 *)
Definition flags_clear (mx v f : Z) : Z := cast (BitField mx) (Z.land v (bnot (BitField mx) f)).
(** 67-70 *)
Definition flags_count (mx v : Z) : nat := CountBits_rt (BitField mx) v.
(** 81-84 *)
Definition flags_set (mx v f : Z) : Z := cast (BitField mx) (Z.lor v f).
(** 93-96 *)
Definition flags_test (v f : Z) : bool := Z.land v f =? f.
(** 123-126 *)
Definition flags_bool (v : Z) : bool := negb (v =? 0).
(** 136-140; [t] is at least as wide as the field (136 of Flags.hpp restricts it). *)
Definition flags_to_int (t : ity) (v : Z) : Z := cast t v.
(** 148-151 *)
Definition flags_not (mx v : Z) : outcome Z :=
  m <- ValueMask mx ;; Done (cast (BitField mx) (Z.land (bnot (BitField mx) v) m)).
(** 162-165 *)
Definition flags_and (mx v f : Z) : Z := cast (BitField mx) (Z.land v f).
(** 176-179 *)
Definition flags_or (mx v f : Z) : Z := cast (BitField mx) (Z.lor v f).
(** 191-194 *)
Definition flags_xor (mx v f : Z) : outcome Z :=
  m <- ValueMask mx ;; Done (cast (BitField mx) (Z.land (Z.lxor v f) m)).
(** 205-208, 219-222 *)
Definition flags_eq (v f : Z) : bool := v =? f.
Definition flags_ne (v f : Z) : bool := negb (flags_eq v f).
(** 233-238, 250-255 *)
Definition flags_or_assign (mx v f : Z) : Z := cast (BitField mx) (Z.lor v f).
Definition flags_and_assign (mx v f : Z) : Z := cast (BitField mx) (Z.land v f).
(** 267-273: two assignments to m_value. *)
Definition flags_xor_assign (mx v f : Z) : outcome Z :=
  let v1 := cast (BitField mx) (Z.lxor v f) in
  m <- ValueMask mx ;; Done (cast (BitField mx) (Z.land v1 m)).

(** Free operators on enumerators, 354-457. *)
Definition enum_not (mx : Z) (auto : bool) (e : Z) : outcome Z := v <- flags_of_enum mx auto e ;; flags_not mx v.
Definition enum_and (mx : Z) (auto : bool) (a b : Z) : outcome Z :=
  v <- flags_of_enum mx auto a ;; f <- flags_of_enum mx auto b ;; Done (flags_and mx v f).
Definition enum_or (mx : Z) (auto : bool) (a b : Z) : outcome Z :=
  v <- flags_of_enum mx auto a ;; f <- flags_of_enum mx auto b ;; Done (flags_or mx v f).
Definition enum_xor (mx : Z) (auto : bool) (a b : Z) : outcome Z :=
  v <- flags_of_enum mx auto a ;; f <- flags_of_enum mx auto b ;; flags_xor mx v f.
(** [enum op flags], 354-390: computed as [flags op enum]. *)
Definition enum_and_flags (mx : Z) (auto : bool) (e rhs : Z) : outcome Z := f <- flags_of_enum mx auto e ;; Done (flags_and mx rhs f).
Definition enum_or_flags (mx : Z) (auto : bool) (e rhs : Z) : outcome Z := f <- flags_of_enum mx auto e ;; Done (flags_or mx rhs f).
Definition enum_xor_flags (mx : Z) (auto : bool) (e rhs : Z) : outcome Z := f <- flags_of_enum mx auto e ;; flags_xor mx rhs f.

(** ** Iterator; its state is m_remainingFlags. *)
(** 99-109 *)
Definition flags_begin (v : Z) : Z := v.
Definition flags_end : Z := 0.
(** 306-313 *)
Definition iter_next (mx rem : Z) : outcome Z :=
  let bitIndex := Z.of_nat (FindFirstBit_rt (BitField mx) rem) in
  assert (negb (bitIndex =? 0)) ;;;
  ClearBit (BitField mx) rem (cast (BitField mx) (bitIndex - 1)).
(** 328-336 *)
Definition iter_deref (mx : Z) (auto : bool) (rem : Z) : outcome Z :=
  let bitIndex := Z.of_nat (FindFirstBit_rt (BitField mx) rem) in
  assert (negb (bitIndex =? 0)) ;;;
  if auto then Done (bitIndex - 1) else shl u32 1 (bitIndex - 1).
(** [for (E e : flags) out.push_back(e)]: one round reads the iterator, then increments it. *)
Fixpoint iterate (fuel : nat) (mx : Z) (auto : bool) (it last : Z) : outcome (list Z) :=
  if it =? last then Done []
  else match fuel with
  | O => Fault FDiverge
  | S fuel' =>
    e <- iter_deref mx auto it ;;
    it' <- iter_next mx it ;;
    r <- iterate fuel' mx auto it' last ;;
    Done (e :: r)
  end.
Definition flags_list (mx : Z) (auto : bool) (v : Z) : outcome (list Z) := iterate 64 mx auto (flags_begin v) flags_end.
