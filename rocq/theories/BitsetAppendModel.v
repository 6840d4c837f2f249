(** Model of Bitset::AppendBits(T bits, bitCount), Bitset.inl 156-191, for a signed T of [tw] bits (the type of most literals); BitsetModel.v has
    the unsigned case. A T is its value. [bits >> n] of a negative value is arithmetic, the conversion to Block is modulo 2^w, the one to T wraps
    (both implementation-defined before C++20, and so in all compilers). *)
From Coq Require Import ZArith.
From Verif Require Import Base BitsetModel.
Open Scope nat_scope.

Definition to_block (w : nat) (z : Z) : N := Z.to_N (z mod 2 ^ Z.of_nat w).
Definition to_signed (tw : nat) (z : Z) : Z := ((z + 2 ^ (Z.of_nat tw - 1)) mod 2 ^ Z.of_nat tw - 2 ^ (Z.of_nat tw - 1))%Z.

Section Append.
Variables w tw : nat.
(** 161-168: blocks, bits and bits to append afterwards. *)
Definition signed_head (b : bitset) (bits0 : Z) (n0 : nat) : outcome (list N * Z * nat) :=
  let bitShift := bitCount b mod w in
  if negb (bitShift =? 0) then
    let remainingBits := w - bitShift in
    x <- vget (blocks b) (length (blocks b) - 1) ;;
    s <- shl w (to_block w bits0) bitShift ;;
    l <- vset (blocks b) (length (blocks b) - 1) (N.lor x s) ;;
    Done (l, (if remainingBits <? tw then Z.shiftr bits0 (Z.of_nat remainingBits) else 0%Z), n0 - Nat.min remainingBits n0)
  else Done (blocks b, bits0, n0).
(** 173-183 *)
Definition signed_loop (blockCount : nat) (s : list N * Z * nat) : outcome (list N * Z * nat) :=
  foreach (range 0 (blockCount - 1)) (fun '(l, bits, n) _ =>
    Done (l ++ [to_block w bits], (if w <? tw then Z.shiftr bits (Z.of_nat w) else 0%Z), n - w)) s.
(** 186-189: [bits &= mask] goes back to T before it is converted to Block. *)
Definition signed_last (l : list N) (bits : Z) (n count : nat) : outcome bitset :=
  one <- shlp w 1 n ;;
  let bits := to_signed tw (Z.land bits (Z.of_N (one - 1))) in
  Done (mkB (l ++ [to_block w bits]) count).
Definition AppendSigned (b : bitset) (bits0 : Z) (n0 : nat) : outcome bitset :=
  let count := bitCount b + n0 in
  ' (l, bits, n) <- signed_head b bits0 n0 ;;
  if 0 <? n then
    ' (l, bits, n) <- signed_loop (ComputeBlockCount w n) (l, bits, n) ;;
    signed_last l bits n count
  else Done (mkB l count).
End Append.
