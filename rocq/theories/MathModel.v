(** Model of include/NazaraUtils/MathUtils.inl (integer part) and Endianness.inl.
    Integers are [Z] in the range of their C++ type [ity].  Floating-point functions
    (DegreeToRadian, Lerp, IsNaN, float NumberEquals, ...) are not modelled here. *)
From Verif Require Import Base CInt.
Open Scope Z_scope.

(** ** Compiler builtins, by their documentation (GCC, "Other Builtins") *)

(** __builtin_popcount: the number of 1-bits. *)
Fixpoint pos_popcount (p : positive) : nat :=
  match p with xH => 1 | xO q => pos_popcount q | xI q => S (pos_popcount q) end.
Definition builtin_popcount (x : Z) : nat :=
  match x with Zpos p => pos_popcount p | _ => O end.

(** __builtin_ffs: one plus the index of the least significant 1-bit, or zero if the argument is zero. *)
Fixpoint pos_ffs (p : positive) : nat :=
  match p with xO q => S (pos_ffs q) | _ => 1%nat end.
Definition builtin_ffs (x : Z) : nat := match x with Zpos p => pos_ffs p | _ => O end.

(** __builtin_clz: the number of leading 0-bits starting at the most significant of [w] bits;
    undefined for 0. *)
Definition builtin_clz (w : Z) (x : Z) : outcome Z :=
  if x =? 0 then Fault FUB else Done (w - (Z.log2 x + 1)).

(** Width of the unsigned type used for the builtin on x86-64: 64 for 8-byte types, else 32. *)
Definition builtin_width (t : ity) : Z := if wid t =? 64 then 64 else 32.

(** ** Tables, MathUtils.inl 11-42 *)
Definition s_BitReverseTable256 : list Z := [
  0x00; 0x80; 0x40; 0xC0; 0x20; 0xA0; 0x60; 0xE0; 0x10; 0x90; 0x50; 0xD0; 0x30; 0xB0; 0x70; 0xF0;
  0x08; 0x88; 0x48; 0xC8; 0x28; 0xA8; 0x68; 0xE8; 0x18; 0x98; 0x58; 0xD8; 0x38; 0xB8; 0x78; 0xF8;
  0x04; 0x84; 0x44; 0xC4; 0x24; 0xA4; 0x64; 0xE4; 0x14; 0x94; 0x54; 0xD4; 0x34; 0xB4; 0x74; 0xF4;
  0x0C; 0x8C; 0x4C; 0xCC; 0x2C; 0xAC; 0x6C; 0xEC; 0x1C; 0x9C; 0x5C; 0xDC; 0x3C; 0xBC; 0x7C; 0xFC;
  0x02; 0x82; 0x42; 0xC2; 0x22; 0xA2; 0x62; 0xE2; 0x12; 0x92; 0x52; 0xD2; 0x32; 0xB2; 0x72; 0xF2;
  0x0A; 0x8A; 0x4A; 0xCA; 0x2A; 0xAA; 0x6A; 0xEA; 0x1A; 0x9A; 0x5A; 0xDA; 0x3A; 0xBA; 0x7A; 0xFA;
  0x06; 0x86; 0x46; 0xC6; 0x26; 0xA6; 0x66; 0xE6; 0x16; 0x96; 0x56; 0xD6; 0x36; 0xB6; 0x76; 0xF6;
  0x0E; 0x8E; 0x4E; 0xCE; 0x2E; 0xAE; 0x6E; 0xEE; 0x1E; 0x9E; 0x5E; 0xDE; 0x3E; 0xBE; 0x7E; 0xFE;
  0x01; 0x81; 0x41; 0xC1; 0x21; 0xA1; 0x61; 0xE1; 0x11; 0x91; 0x51; 0xD1; 0x31; 0xB1; 0x71; 0xF1;
  0x09; 0x89; 0x49; 0xC9; 0x29; 0xA9; 0x69; 0xE9; 0x19; 0x99; 0x59; 0xD9; 0x39; 0xB9; 0x79; 0xF9;
  0x05; 0x85; 0x45; 0xC5; 0x25; 0xA5; 0x65; 0xE5; 0x15; 0x95; 0x55; 0xD5; 0x35; 0xB5; 0x75; 0xF5;
  0x0D; 0x8D; 0x4D; 0xCD; 0x2D; 0xAD; 0x6D; 0xED; 0x1D; 0x9D; 0x5D; 0xDD; 0x3D; 0xBD; 0x7D; 0xFD;
  0x03; 0x83; 0x43; 0xC3; 0x23; 0xA3; 0x63; 0xE3; 0x13; 0x93; 0x53; 0xD3; 0x33; 0xB3; 0x73; 0xF3;
  0x0B; 0x8B; 0x4B; 0xCB; 0x2B; 0xAB; 0x6B; 0xEB; 0x1B; 0x9B; 0x5B; 0xDB; 0x3B; 0xBB; 0x7B; 0xFB;
  0x07; 0x87; 0x47; 0xC7; 0x27; 0xA7; 0x67; 0xE7; 0x17; 0x97; 0x57; 0xD7; 0x37; 0xB7; 0x77; 0xF7;
  0x0F; 0x8F; 0x4F; 0xCF; 0x2F; 0xAF; 0x6F; 0xEF; 0x1F; 0x9F; 0x5F; 0xDF; 0x3F; 0xBF; 0x7F; 0xFF].

Definition s_MultiplyDeBruijnBitPosition : list Z := [
  0; 9; 1; 10; 13; 21; 2; 29; 11; 14; 16; 18; 22; 25; 3; 30;
  8; 12; 20; 28; 15; 17; 24; 7; 19; 27; 23; 6; 26; 5; 4; 31].

Definition s_MultiplyDeBruijnBitPosition2 : list Z := [
  0; 1; 28; 2; 29; 14; 24; 3; 30; 22; 20; 15; 25; 17; 4; 8;
  31; 27; 13; 23; 21; 19; 16; 7; 26; 12; 18; 6; 11; 5; 10; 9].

(** Table access; out of range is undefined behaviour. *)
Definition table (l : list Z) (i : Z) : outcome Z := vget l (Z.to_nat i).

(** ** Detail::IntegralLog2, MathUtils.inl 44-56 (types up to 32 bits) *)
Definition smear_step (s v : Z) : Z := Z.lor v (Z.shiftr v s).
Definition IntegralLog2_32 (number : Z) : outcome Z :=
  let n := smear_step 16 (smear_step 8 (smear_step 4 (smear_step 2 (smear_step 1 number)))) in
  table s_MultiplyDeBruijnBitPosition (Z.shiftr (cast u32 (n * 0x07C4ACDD)) 27).

(** MathUtils.inl 58-79 (64 bits): loop over i = 4, 0 (bytes). *)
Definition word32 (number : Z) (i : Z) : Z :=
  Z.shiftr (Z.land number (cast u64 (Z.shiftl 0xFFFFFFFF (i * 8)))) (i * 8).
Definition IntegralLog2_64 (number : Z) : outcome Z :=
  l1 <- IntegralLog2_32 (word32 number 4) ;;
  if negb (l1 =? 0) then Done (l1 + 4 * 8) else
  l0 <- IntegralLog2_32 (word32 number 0) ;;
  if negb (l0 =? 0) then Done (l0 + 0 * 8) else Done 0.

(** IntegralLog2, MathUtils.inl 690-695.  A narrow number is converted to UInt32 at the call; in the 64-bit version the masked
    and shifted number of a signed type is converted to UInt32 before use, which gives the same word. *)
Definition IntegralLog2 (t : ity) (number : Z) : outcome Z :=
  if wid t <=? 32 then IntegralLog2_32 (cast u32 number) else IntegralLog2_64 number.

(** ** Detail::IntegralLog2Pot, MathUtils.inl 81-108 *)
Definition IntegralLog2Pot_32 (number : Z) : outcome Z :=
  table s_MultiplyDeBruijnBitPosition2 (Z.shiftr (cast u32 (number * 0x077CB531)) 27).
Definition IntegralLog2Pot_64 (number : Z) : outcome Z :=
  l1 <- IntegralLog2Pot_32 (word32 number 4) ;;
  if negb (l1 =? 0) || (word32 number 4 =? 1) then Done (l1 + 4 * 8) else
  l0 <- IntegralLog2Pot_32 (word32 number 0) ;;
  if negb (l0 =? 0) || (word32 number 0 =? 1) then Done (l0 + 0 * 8) else Done 0.
Definition IntegralLog2Pot (t : ity) (number : Z) : outcome Z :=
  if wid t <=? 32 then IntegralLog2Pot_32 number else IntegralLog2Pot_64 number.

(** ** Detail::NumberEquals, integral versions, MathUtils.inl 126-142 *)
Definition NumberEquals (t : ity) (a0 b0 maxDifference : Z) : outcome bool :=
  let '(a, b) := if a0 <? b0 then (b0, a0) else (a0, b0) in
  if sgn t then
    (* both operands converted to the unsigned type, then promoted for the subtraction and the comparison *)
    let u := make_unsigned t in
    d <- arith u (cast u a - cast u b) ;;
    Done (d <=? cast u maxDifference)
  else
    d <- arith t (a - b) ;;
    Done (cast t d <=? maxDifference).

(** ** ArithmeticRightShift, MathUtils.inl 158-179
    [impl_arith]: whether the implementation-defined [>>] on negative values is arithmetic
    (it always is since C++20); only types of at least 32 bits are considered for the logical case. *)
Definition impl_shr (t : ity) (impl_arith : bool) (v s : Z) : outcome Z :=
  if (s <? 0) || (wid (promote t) <=? s) then Fault FUB
  else if impl_arith then Done (Z.shiftr v s)
  else Done (cast (promote t) (Z.shiftr (v mod 2 ^ wid (promote t)) s)).
Definition ArithmeticRightShift (cpp20 impl_arith : bool) (t1 t2 : ity) (value shift : Z) : outcome Z :=
  if cpp20 then r <- impl_shr t1 true value shift ;; Done (cast t1 r)
  else if sgn t2 then
    if (value <? 0) && (0 <? shift) then
      r <- impl_shr t1 impl_arith value shift ;;
      (* ~static_cast<make_unsigned_t<T1>>(0u): an unsigned value for 32 bits and more, int -1 below *)
      let u := promote (make_unsigned t1) in
      m <- impl_shr u impl_arith (cast u (Z.lnot 0)) shift ;;
      Done (cast t1 (Z.lor r (cast u (Z.lnot m))))
    else r <- impl_shr t1 impl_arith value shift ;; Done (cast t1 r)
  else r <- impl_shr t1 impl_arith value shift ;; Done (cast t1 r).

(** ** ByteSwap, MathUtils.inl 183-291: constant-evaluation expressions, on the bits of the value *)
Definition ByteSwap16 (v : Z) : Z :=
  cast u16 (Z.lor (Z.shiftl (Z.land v 0x00FF) 8) (Z.shiftr (Z.land v 0xFF00) 8)).
Definition ByteSwap32 (v : Z) : Z :=
  cast u32 (Z.lor (Z.lor (Z.lor
    (Z.shiftl (Z.land v 0x000000FF) 24)
    (Z.shiftl (Z.land v 0x0000FF00) 8))
    (Z.shiftr (Z.land v 0x00FF0000) 8))
    (Z.shiftr (Z.land v 0xFF000000) 24)).
Definition ByteSwap64 (v : Z) : Z :=
  cast u64 (Z.lor (Z.lor (Z.lor (Z.lor (Z.lor (Z.lor (Z.lor
    (Z.shiftl (Z.land v 0x00000000000000FF) 56)
    (Z.shiftl (Z.land v 0x000000000000FF00) 40))
    (Z.shiftl (Z.land v 0x0000000000FF0000) 24))
    (Z.shiftl (Z.land v 0x00000000FF000000) 8))
    (Z.shiftr (Z.land v 0x000000FF00000000) 8))
    (Z.shiftr (Z.land v 0x0000FF0000000000) 24))
    (Z.shiftr (Z.land v 0x00FF000000000000) 40))
    (Z.shiftr (Z.land v 0xFF00000000000000) 56)).
(** The result is converted back to T; every intermediate shift is of a value whose product is representable in the unsigned type. *)
Definition ByteSwap (t : ity) (v : Z) : Z :=
  if wid t =? 8 then v else cast t (if wid t =? 16 then ByteSwap16 v
  else if wid t =? 32 then ByteSwap32 v else ByteSwap64 v).

(** ** SwapBytes, MathUtils.inl 535-543 (the generic byte swap of a buffer).
    [j = size - 1] is a size_t: it wraps to 2^64-1 for size = 0, and the loop then walks out of the buffer. *)
Fixpoint SwapBytes_loop (fuel : nat) (buf : list Z) (i j : Z) : outcome (list Z) :=
  if i <? j then
    match fuel with
    | O => Fault FDiverge
    | S fuel' =>
      x <- (if j <? Z.of_nat (length buf) then vget buf (Z.to_nat i) else Fault FUB) ;;
      y <- (if j <? Z.of_nat (length buf) then vget buf (Z.to_nat j) else Fault FUB) ;;
      b1 <- vset buf (Z.to_nat i) y ;;
      b2 <- vset b1 (Z.to_nat j) x ;;
      SwapBytes_loop fuel' b2 (i + 1) (j - 1)
    end
  else Done buf.
Definition SwapBytes (buf : list Z) (size : Z) : outcome (list Z) :=
  SwapBytes_loop (S (length buf)) buf 0 (cast u64 (size - 1)).

(** ** Single bit functions, MathUtils.inl 303-308, 519-524, 555-560, 572-577.
    The bit index has the type of the number; ClearBit compares it with a size_t, so a negative index is above every bound.
    T(1) << bit is computed in the promoted type. *)
Definition ClearBit (t : ity) (number bit : Z) : outcome Z :=
  assert ((0 <=? bit) && (bit <? wid t)) ;;;
  Done (cast t (Z.land number (Z.lnot (Z.shiftl 1 bit)))).
Definition SetBit (t : ity) (number bit : Z) : outcome Z :=
  assert ((0 <=? bit) && (bit <? wid t)) ;;;
  Done (cast t (Z.lor number (Z.shiftl 1 bit))).
Definition TestBit (t : ity) (number bit : Z) : outcome bool :=
  assert ((0 <=? bit) && (bit <? wid t)) ;;;
  Done (negb (Z.land number (cast (promote t) (Z.shiftl 1 bit)) =? 0)).
Definition ToggleBit (t : ity) (number bit : Z) : outcome Z :=
  assert ((0 <=? bit) && (bit <? wid t)) ;;;
  Done (cast t (Z.lxor number (Z.shiftl 1 bit))).

(** ** CountBits, MathUtils.inl 317-363 *)
(** Run-time path (GCC/Clang), 341-351: the value is converted to the builtin's unsigned type. *)
Definition CountBits_rt (t : ity) (value : Z) : nat :=
  builtin_popcount (cast (mkIty false (builtin_width t)) value).
(** Constant evaluation path, 354-362. *)
Fixpoint CountBits_loop (fuel : nat) (t : ity) (value : Z) (count : nat) : outcome nat :=
  if value =? 0 then Done count
  else match fuel with
  | O => Fault FDiverge
  | S fuel' =>
    v1 <- arith t (value - 1) ;;
    CountBits_loop fuel' t (cast t (Z.land value v1)) (S count)
  end.
Definition CountBits_ce (t : ity) (value : Z) : outcome nat :=
  CountBits_loop (Z.to_nat (wid t)) t value 0.

(** ** FindFirstBit, MathUtils.inl 365-421 *)
(** Run-time path, 400-410: ffs of the value converted to int / long long. *)
Definition FindFirstBit_rt (t : ity) (number : Z) : nat :=
  builtin_ffs (number mod 2 ^ builtin_width t).
(** Constant evaluation path, 416-417: [unsignedVal & -unsignedVal] has the promoted type. *)
Definition FindFirstBit_ce (t : ity) (number : Z) : outcome Z :=
  let u := make_unsigned t in
  let v := cast u number in
  if v =? 0 then Done 0
  else neg <- arith u (- v) ;;
       l <- IntegralLog2Pot (promote u) (Z.land v neg) ;;
       Done (l + 1).

(** ** FindLastBit, MathUtils.inl 423-490 *)
(** Run-time path, 458-471. *)
Definition FindLastBit_rt (t : ity) (number : Z) : outcome Z :=
  if number =? 0 then Done 0
  else let w := builtin_width t in
       c <- builtin_clz w (number mod 2 ^ w) ;; Done (w - c).
(** Constant evaluation path, 474-489. *)
Definition FindLastBit_step (k : Z) (st : Z * Z) : Z * Z :=
  let '(v, pos) := st in if 2 ^ k <=? v then (Z.shiftr v k, pos + k) else (v, pos).
Definition FindLastBit_ce (t : ity) (number : Z) : Z :=
  let v := cast (make_unsigned t) number in
  let st0 := (v, 0) in
  let st1 := if 32 <? wid t then FindLastBit_step 32 st0 else st0 in
  let '(v, pos) := FindLastBit_step 1 (FindLastBit_step 2 (FindLastBit_step 4
                     (FindLastBit_step 8 (FindLastBit_step 16 st1)))) in
  if 1 <=? v then pos + 1 else pos.

(** ** ReverseBits, MathUtils.inl 499-507 *)
Definition ReverseBits (t : ity) (integer : Z) : outcome Z :=
  let n := Z.to_nat (wid t / 8) in
  foreach (range 0 n) (fun reversed i =>
    b <- table s_BitReverseTable256 (Z.land (Z.shiftr integer (Z.of_nat i * 8)) 0xFF) ;;
    Done (cast t (Z.lor reversed (Z.shiftl b (wid t - (Z.of_nat i + 1) * 8))))) 0.

(** ** Align / AlignPow2 / IsPow2, MathUtils.inl 590-614, 798-803 *)
Definition IsPow2 (t : ity) (value : Z) : outcome bool :=
  assert (negb (value =? 0)) ;;;
  v1 <- arith t (value - 1) ;;
  Done (Z.land value v1 =? 0).
Definition Align (t : ity) (offset alignment : Z) : outcome Z :=
  assert (0 <? alignment) ;;;
  s <- arith t (offset + alignment) ;;
  s1 <- arith t (s - 1) ;;
  q <- cdiv t s1 alignment ;;
  m <- arith t (q * alignment) ;;
  Done (cast t m).
Definition AlignPow2 (t : ity) (offset alignment : Z) : outcome Z :=
  assert (0 <? alignment) ;;;
  p <- IsPow2 t alignment ;;
  assert p ;;;
  s <- arith t (offset + alignment) ;;
  s1 <- arith t (s - 1) ;;
  a1 <- arith t (alignment - 1) ;;
  Done (cast t (Z.land s1 (cast (promote t) (Z.lnot a1)))).

(** ** Approach / Clamp, MathUtils.inl 625-649.
    Approach does not compile for types narrower than int (std::min(int, T)). *)
Definition Approach (t : ity) (value objective increment : Z) : outcome Z :=
  if value <? objective then s <- arith t (value + increment) ;; Done (Z.min s objective)
  else if objective <? value then s <- arith t (value - increment) ;; Done (Z.max s objective)
  else Done value.
Definition Clamp (value min max : Z) : Z := Z.max (Z.min value max) min.

(** ** GetNearestPowerOfTwo, MathUtils.inl 671-679.  [x <<= 1] on a negative value is undefined before C++20
    and a shift of the two's complement representation since. *)
Definition shl_assign (cpp20 : bool) (t : ity) (x : Z) : outcome Z :=
  if negb cpp20 && (x <? 0) then Fault FUB else Done (cast t (Z.shiftl x 1)).
Fixpoint GetNearestPowerOfTwo_loop (cpp20 : bool) (fuel : nat) (t : ity) (number x : Z) : outcome Z :=
  if x <? number then
    match fuel with
    | O => Fault FDiverge
    | S fuel' => x' <- shl_assign cpp20 t x ;; GetNearestPowerOfTwo_loop cpp20 fuel' t number x'
    end
  else Done x.
Definition GetNearestPowerOfTwo (cpp20 : bool) (fuel : nat) (t : ity) (number : Z) : outcome Z :=
  GetNearestPowerOfTwo_loop cpp20 fuel t number 1.

(** ** IntegralPow, MathUtils.inl 721-729 *)
Definition IntegralPow (t : ity) (base : Z) (exponent : nat) : outcome Z :=
  foreach (range 0 exponent) (fun r _ => m <- arith t (r * base) ;; Done (cast t m)) 1.

(** ** Mod (integers), MathUtils.inl 822-838; MultiplyAdd, 851-855 *)
Definition Mod (t : ity) (x y : Z) : outcome Z := r <- crem t x y ;; Done (cast t r).
Definition MultiplyAdd (t : ity) (x y z : Z) : outcome Z :=
  m <- arith t (x * y) ;; s <- arith t (m + z) ;; Done (cast t s).

(** ** RoundToPow2, MathUtils.inl 923-942; right shifts of negative values are arithmetic *)
Definition RoundToPow2 (t : ity) (value : Z) : outcome Z :=
  d <- arith t (value - 1) ;;
  let v := cast t d in
  let v := smear_step 4 (smear_step 2 (smear_step 1 v)) in
  let v := if 8 <? wid t then smear_step 8 v else v in
  let v := if 16 <? wid t then smear_step 16 v else v in
  let v := if 32 <? wid t then smear_step 32 v else v in
  s <- arith t (v + 1) ;;
  Done (cast t s).

(** ** Endianness.inl 10-40: conversions for a host whose endianness is [host_little] *)
Definition BigEndianToHost (host_little : bool) (t : ity) (v : Z) : Z := if host_little then ByteSwap t v else v.
Definition HostToBigEndian (host_little : bool) (t : ity) (v : Z) : Z := if host_little then ByteSwap t v else v.
Definition LittleEndianToHost (host_little : bool) (t : ity) (v : Z) : Z := if host_little then v else ByteSwap t v.
Definition HostToLittleEndian (host_little : bool) (t : ity) (v : Z) : Z := if host_little then v else ByteSwap t v.
