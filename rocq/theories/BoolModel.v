(** Model of the integer functions of MathUtils.inl and of Bitset when T is bool, which satisfies std::integral and std::is_unsigned.
    A bool is promoted to int in every operation; the result is converted back by comparison with 0 and not modulo a power of two.
    BitCount<bool> is CHAR_BIT * sizeof(bool) = 8 (Constants.hpp 17). FindFirstBit, FindLastBit (std::make_unsigned_t<bool>), RoundToPow2
    (operator-- of bool) and Approach (std::min(int, bool)) do not compile. *)
From Coq Require Import ZArith.
From Verif Require Import Base CInt MathModel BitsetModel.

Definition promoted (b : bool) : Z := if b then 1 else 0.
Definition to_bool (z : Z) : bool := negb (z =? 0)%Z.
Definition to_boolN (x : N) : bool := negb (x =? 0)%N.

(** MathUtils.inl 302-306, 512-516, 549-553, 565-569. The assertion (bit index below 8) holds of both indices. *)
Definition b_ClearBit (number bit : bool) : bool := to_bool (Z.land (promoted number) (Z.lnot (Z.shiftl 1 (promoted bit)))).
Definition b_SetBit (number bit : bool) : bool := to_bool (Z.lor (promoted number) (Z.shiftl 1 (promoted bit))).
Definition b_TestBit (number bit : bool) : bool := to_bool (Z.land (promoted number) (Z.shiftl 1 (promoted bit))).
Definition b_ToggleBit (number bit : bool) : bool := to_bool (Z.lxor (promoted number) (Z.shiftl 1 (promoted bit))).
(** ReverseBits 489-498: one byte; T(table entry) is a bool, shifted by 0. *)
Definition b_ReverseBits (integer : bool) : outcome bool :=
  x <- table s_BitReverseTable256 (Z.land (Z.shiftr (promoted integer) 0) 0xFF) ;;
  Done (to_bool (Z.lor (promoted false) (Z.shiftl (promoted (to_bool x)) 0))).
(** The loop of CountBits 354-360; value &= value - 1 clears a bool at once. *)
Fixpoint b_count_loop (fuel : nat) (value : bool) (count : nat) : outcome nat :=
  if value then match fuel with O => Fault FDiverge | S f => b_count_loop f (to_bool (Z.land (promoted value) (promoted value - 1))) (S count) end
  else Done count.
Definition b_CountBits (value : bool) : outcome nat := b_count_loop 2 value 0.
(** NumberEquals 126-133 (the difference is converted to bool) and IntegralPow 722-729 *)
Definition b_NumberEquals (a b maxDifference : bool) : bool :=
  let '(a, b) := if (promoted a <? promoted b)%Z then (b, a) else (a, b) in
  let diff := to_bool (promoted a - promoted b) in
  (promoted diff <=? promoted maxDifference)%Z.
Definition b_IntegralPow (base : bool) (exponent : nat) : outcome bool :=
  foreach (range 0 exponent) (fun r _ => Done (to_bool (promoted r * promoted base))) true.
(** MultiplyAdd 851-855 *)
Definition b_MultiplyAdd (x y z : bool) : bool := to_bool (promoted x * promoted y + promoted z).

Section Bits.
Variable w : nat.
(** Bitset(T value), Bitset.inl 120-127: no block is narrower than a bool. *)
Definition b_of_bool (value : bool) : bitset := mkB [if value then 1%N else 0%N] 8.
(** To<T>(), Bitset.inl 855-866: [static_cast<T>(m_blocks[i])] tells whether the block is not 0; the shift is one of an int, and
    [value |= ...] converts to bool again. *)
Definition b_To (b : bitset) : outcome bool :=
  assert (bitCount b <=? 8) ;;;
  foreach (range 0 (length (blocks b))) (fun value i =>
    x <- vget (blocks b) i ;;
    if i * w <? 32 then Done (to_bool (Z.lor (promoted value) (Z.shiftl (promoted (to_boolN x)) (Z.of_nat (i * w))))) else Fault FUB) false.
(** AppendBits(T bits, bitCount), Bitset.inl 156-191: the shifted or masked bits are converted to bool. *)
Definition b_AppendBits (b : bitset) (bits0 : bool) (n0 : nat) : outcome bitset :=
  let bitShift := bitCount b mod w in
  let count := bitCount b + n0 in
  '(l, bits, n) <-
    (if negb (bitShift =? 0) then
       let remainingBits := w - bitShift in
       x <- vget (blocks b) (length (blocks b) - 1) ;;
       s <- shl w (if bits0 then 1%N else 0%N) bitShift ;;
       l <- vset (blocks b) (length (blocks b) - 1) (N.lor x s) ;;
       Done (l, (if remainingBits <? 8 then to_bool (Z.shiftr (promoted bits0) (Z.of_nat remainingBits)) else false),
             n0 - Nat.min remainingBits n0)
     else Done (blocks b, bits0, n0)) ;;
  if 0 <? n then
    '(l, bits, n) <-
      foreach (range 0 (ComputeBlockCount w n - 1)) (fun '(l, bits, n) (_ : nat) =>
        Done (l ++ [if (bits : bool) then 1%N else 0%N], false, n - w)) (l, bits, n) ;;
    one <- shlp w 1 n ;;
    let bits := to_boolN (N.land (if (bits : bool) then 1 else 0) (one - 1)) in
    Done (mkB (l ++ [if bits then 1%N else 0%N]) count)
  else Done (mkB l count).
End Bits.
