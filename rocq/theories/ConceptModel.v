(** Model of the constraints on the functions for integers, MathUtils.hpp 29-61 and Concepts.hpp: [NAZARA_STD_CONCEPT_T(std::integral) T] is the
    constraint when the standard library has concepts, and [typename T] otherwise (C++17, the language xmake.lua selects). Without it a call is
    refused only when an operation of the body is not valid for T. The body of a function is the list of the kinds of operations it applies to T. *)
From Coq Require Import ZArith SpecFloat.
From Verif Require Import Base MathModel.

(** Argument types: integers other than bool, bool, floating point types by size, unscoped enumerations of at most 4 bytes. *)
Inductive argument := AInteger | ABool | AFloat | ADouble | AEnum.
Definition integral (a : argument) : bool := match a with AInteger | ABool => true | _ => false end.

Inductive operation :=
| OShift          (* T << n, T >> n, T & m, T | m, T ^ m, ~T: integers and what is promoted to them *)
| OArith          (* + - * / and comparisons *)
| OFromInt        (* an int initialises or is assigned to a T, or is returned as one *)
| OStep           (* ++ and -- *)
| OMakeUnsigned   (* std::make_unsigned_t<T> *)
| OStaticIntegral (* static_assert(std::is_integral_v<T>) *)
| OToUInt32.      (* implicit conversion to UInt32 *)
Definition valid (a : argument) (o : operation) : bool :=
  match o, a with
  | OShift, (AFloat | ADouble) => false
  | OFromInt, AEnum => false
  | OStep, (ABool | AEnum) => false
  | OMakeUnsigned, (ABool | AFloat | ADouble) => false
  | OStaticIntegral, (AFloat | ADouble | AEnum) => false
  | _, _ => true
  end.

Inductive fn := FAlign | FAlignPow2 | FClearBit | FCountBits | FFindFirstBit | FFindLastBit | FReverseBits | FSetBit | FTestBit | FToggleBit
  | FGetNearestPowerOfTwo | FIntegralLog2 | FIntegralLog2Pot | FIsPow2 | FRoundToPow2.
(** The bodies in MathUtils.inl. IntegralLog2 and IntegralLog2Pot have one version for types of at most 4 bytes (45-56, 81-86) and one for wider
    types (58-79, 88-108), to which ADouble goes; integers are valid for both. *)
Definition body (f : fn) (a : argument) : list operation :=
  match f with
  | FAlign => [OArith; OFromInt]                                                    (* 590-594 *)
  | FAlignPow2 => [OArith; OShift; OFromInt]                                        (* 608-614 *)
  | FClearBit | FSetBit | FToggleBit => [OArith; OShift; OFromInt]                  (* 302-306, 512-516, 565-569: number op= ... *)
  | FTestBit => [OArith; OShift]                                                    (* 549-553 *)
  | FCountBits => [OStaticIntegral; OShift; OArith; OFromInt]                       (* 317-363 *)
  | FFindFirstBit | FFindLastBit => [OStaticIntegral; OMakeUnsigned; OShift]        (* 365-412, 414-477 *)
  | FReverseBits => [OFromInt; OShift]                                              (* 489-498 *)
  | FGetNearestPowerOfTwo => [OFromInt; OArith; OShift]                             (* 671-679 *)
  | FIntegralLog2 => match a with ADouble => [OShift; OFromInt] | _ => [OToUInt32] end
  | FIntegralLog2Pot => match a with ADouble => [OShift; OFromInt] | _ => [OArith; OToUInt32] end
  | FIsPow2 => [OArith; OShift]                                                     (* 798-803 *)
  | FRoundToPow2 => [OStep; OShift; OFromInt]                                       (* 923-942 *)
  end.
Definition compiles (concepts : bool) (f : fn) (a : argument) : bool := (negb concepts || integral a) && forallb (valid a) (body f a).

(** Align for floating point T, 594; [alignment > 0] is the assertion. *)
Definition FloatAlign (prec emax : Z) (offset alignment : spec_float) : outcome spec_float :=
  let one := binary_normalize prec emax 1 0 false in
  assert (SFltb (S754_zero false) alignment) ;;;
  Done (SFmul prec emax (SFdiv prec emax (SFsub prec emax (SFadd prec emax offset alignment) one) alignment) alignment).
(** IntegralLog2 for float: the argument m * 2^e is converted to UInt32 at the call, towards zero; undefined out of range. *)
Definition truncated (m e : Z) : Z := if (0 <=? e)%Z then (m * 2 ^ e)%Z else Z.quot m (2 ^ (- e)).
Definition FloatLog2 (m e : Z) : outcome Z :=
  let n := truncated m e in
  require ((0 <=? n) && (n <? 2 ^ 32))%Z ;;; IntegralLog2_32 n.
(** IntegralLog2Pot for float, 81-86: the product with the constant, itself converted to float, is a float; no reduction modulo 2^32 happens
    before the conversion to UInt32. *)
Definition to_uint32 (x : spec_float) : outcome Z :=
  match x with
  | S754_zero _ => Done 0%Z
  | S754_finite s m e => let n := truncated (if s then Zneg m else Zpos m) e in require ((0 <=? n) && (n <? 2 ^ 32))%Z ;;; Done n
  | _ => Fault FUB
  end.
Definition FloatLog2Pot (x : spec_float) : outcome Z :=
  p <- to_uint32 (SFmul 24 128 x (binary_normalize 24 128 0x077CB531 0 false)) ;;
  table s_MultiplyDeBruijnBitPosition2 (Z.shiftr p 27).
