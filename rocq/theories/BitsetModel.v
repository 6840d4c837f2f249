(** Model of include/NazaraUtils/Bitset.hpp and Bitset.inl.
    A block is an [N] below [2^w] where [w] is [bitsPerBlock] (8, 16, 32 or 64).
    The container is a [std::vector<Block>] ([list N]); its capacity is not modelled.
    [npos] is modelled by [None]: no position reaches SIZE_MAX. *)
From Verif Require Import Base CInt MathModel.
Open Scope nat_scope.

(** Bitset.hpp 141-142: the two data members. *)
Record bitset := mkB { blocks : list N; bitCount : nat }.

Section Model.
Variable w : nat.   (* bitsPerBlock = BitCount<Block>, Bitset.hpp 116 *)

(** Conversion of a value to [Block]. *)
Definition trunc (x : N) : N := (x mod 2 ^ N.of_nat w)%N.
(** fullBitMask, Bitset.hpp 115 *)
Definition fullBitMask : N := N.ones (N.of_nat w).

(** Width of the promoted block type (integral promotion to int below 32 bits). *)
Definition pw : nat := Nat.max w 32.

(** [x << s] on a promoted block, before conversion back to Block. *)
Definition shlp (x : N) (s : nat) : outcome N :=
  if s <? pw then Done (N.shiftl x (N.of_nat s) mod 2 ^ N.of_nat pw)%N else Fault FUB.
(** [Block(x << s)]: shift by at least the promoted width is undefined. *)
Definition shl (x : N) (s : nat) : outcome N :=
  if s <? pw then Done (trunc (N.shiftl x (N.of_nat s))) else Fault FUB.
Definition shr (x : N) (s : nat) : outcome N :=
  if s <? pw then Done (N.shiftr x (N.of_nat s)) else Fault FUB.
(** [Block(~x)] *)
Definition bnot (x : N) : N := N.lxor (trunc x) fullBitMask.

(** Bitset.inl 1216 *)
Definition GetBitIndex (bit : nat) : nat := Nat.land bit (w - 1).
(** Bitset.inl 1226 *)
Definition GetBlockIndex (bit : nat) : nat := bit / w.
(** Bitset.inl 1206 *)
Definition ComputeBlockCount (n : nat) : nat :=
  GetBlockIndex n + (if GetBitIndex n =? 0 then 0 else 1).

(** Bitset.inl 1185-1189 *)
Definition GetLastBlockMask (b : bitset) : outcome N :=
  let bitIndex := GetBitIndex (bitCount b) in
  if bitIndex =? 0 then Done fullBitMask
  else m <- shl 1 bitIndex ;; Done (m - 1)%N.

(** Bitset.inl 1195-1199 *)
Definition ResetExtraBits (b : bitset) : outcome bitset :=
  match blocks b with
  | [] => Done b
  | _ =>
    let last := length (blocks b) - 1 in
    m <- GetLastBlockMask b ;;
    x <- vget (blocks b) last ;;
    l <- vset (blocks b) last (N.land x m) ;;
    Done (mkB l (bitCount b))
  end.

(** Bitset(), Bitset.inl 27-31 *)
Definition empty : bitset := mkB [] 0.

(** Bitset.inl 544-559 *)
Definition Resize (b : bitset) (n : nat) (defaultVal : bool) : outcome bitset :=
  let remainingBits := GetBitIndex (bitCount b) in
  let fill := if defaultVal then fullBitMask else 0%N in
  l <- (if (bitCount b <? n) && (0 <? remainingBits) && defaultVal then
          (* lastBlockIndex = m_blocks.size() - 1 wraps on an empty vector: out of range *)
          if length (blocks b) =? 0 then Fault FUB else
          let last := length (blocks b) - 1 in
          let l := vresize (blocks b) (ComputeBlockCount n) fill in
          m <- shl fullBitMask remainingBits ;;
          x <- vget l last ;;
          vset l last (N.lor x m)
        else Done (vresize (blocks b) (ComputeBlockCount n) fill)) ;;
  ResetExtraBits (mkB l n).

(** Bitset(bitCount, val), Bitset.inl 39-44 *)
Definition make (n : nat) (val : bool) : outcome bitset := Resize empty n val.

(** Bitset.inl 204-208 *)
Definition Clear (b : bitset) : bitset := mkB [] 0.

(** Set(bit, val), Bitset.inl 631-641 *)
Definition Set_ (b : bitset) (bit : nat) (val : bool) : outcome bitset :=
  assert (bit <? bitCount b) ;;;
  x <- vget (blocks b) (GetBlockIndex bit) ;;
  mask <- shl 1 (GetBitIndex bit) ;;
  let minus_val := if val then fullBitMask else 0%N in   (* -static_cast<Block>(val) *)
  l <- vset (blocks b) (GetBlockIndex bit) (N.lor (N.land x (bnot mask)) (N.land minus_val mask)) ;;
  Done (mkB l (bitCount b)).

(** Set(bool), Bitset.inl 613-618 *)
Definition SetAll (b : bitset) (val : bool) : outcome bitset :=
  let b' := mkB (map (fun _ => if val then fullBitMask else 0%N) (blocks b)) (bitCount b) in
  if val then ResetExtraBits b' else Done b'.

(** Bitset.inl 565, 578 *)
Definition ResetAll (b : bitset) : outcome bitset := SetAll b false.
Definition ResetBit (b : bitset) (bit : nat) : outcome bitset := Set_ b bit false.

(** Bitset.inl 231-237 *)
Definition Flip (b : bitset) : outcome bitset :=
  ResetExtraBits (mkB (map (fun x => N.lxor x fullBitMask) (blocks b)) (bitCount b)).

(** Bitset.inl 792-796 *)
Definition Test (b : bitset) (bit : nat) : outcome bool :=
  assert (bit <? bitCount b) ;;;
  x <- vget (blocks b) (GetBlockIndex bit) ;;
  m <- shl 1 (GetBitIndex bit) ;;
  Done (negb (N.land x m =? 0)%N).

(** Bitset.inl 291-295 *)
Definition GetBlock (b : bitset) (i : nat) : outcome N :=
  assert (i <? length (blocks b)) ;;; vget (blocks b) i.
Definition GetBlockCount (b : bitset) : nat := length (blocks b).
Definition GetSize (b : bitset) : nat := bitCount b.

(** Bitset.inl 652-659 *)
Definition SetBlock (b : bitset) (i : nat) (block : N) : outcome bitset :=
  assert (i <? length (blocks b)) ;;;
  l <- vset (blocks b) i (trunc block) ;;
  if i =? length (blocks b) - 1 then ResetExtraBits (mkB l (bitCount b)) else Done (mkB l (bitCount b)).

(** CountBits / FindFirstBit on a block (run-time path, MathModel). *)
Definition block_ty : ity := mkIty false (Z.of_nat w).
Definition block_popcount (x : N) : nat := CountBits_rt block_ty (Z.of_N x).
Definition block_ffs (x : N) : nat := FindFirstBit_rt block_ty (Z.of_N x).

(** Bitset.inl 216-223 *)
Definition Count (b : bitset) : nat := fold_left (fun c x => c + block_popcount x) (blocks b) 0.

(** Bitset.inl 1157-1178 *)
Fixpoint first_nonzero (l : list N) (i : nat) : option (nat * N) :=
  match l with
  | [] => None
  | x :: r => if (x =? 0)%N then first_nonzero r (S i) else Some (i, x)
  end.
Definition FindFirstFrom (b : bitset) (blockIndex : nat) : option nat :=
  if length (blocks b) <=? blockIndex then None
  else match first_nonzero (skipn blockIndex (blocks b)) blockIndex with
       | None => None
       | Some (i, block) => Some (block_ffs block + i * w - 1)
       end.

(** Bitset.inl 245-248 *)
Definition FindFirst (b : bitset) : option nat := FindFirstFrom b 0.

(** Bitset.inl 260-280 *)
Definition FindNext (b : bitset) (bit0 : nat) : outcome (option nat) :=
  assert (bit0 <? bitCount b) ;;;
  let bit := bit0 + 1 in
  if bitCount b <=? bit then Done None
  else
    x <- vget (blocks b) (GetBlockIndex bit) ;;
    block <- shr x (GetBitIndex bit) ;;
    if negb (block =? 0)%N then Done (Some (block_ffs block + bit - 1))
    else Done (FindFirstFrom b (GetBlockIndex bit + 1)).

(** BitIterator, Bitset.inl 1427-1464: the position, [None] being npos (the end iterator). *)
Definition iter_begin (b : bitset) : option nat := FindFirst b.
(** prefix ++, 1442-1446; incrementing the end iterator calls FindNext(npos), which asserts. *)
Definition iter_incr (b : bitset) (it : option nat) : outcome (option nat) :=
  match it with Some p => FindNext b p | None => Fault FAssert end.
(** postfix ++, 1434-1439: returns (value returned, iterator afterwards).
    The code increments and returns a copy, leaving the iterator itself unchanged. *)
Definition iter_postincr (b : bitset) (it : option nat) : outcome (option nat * option nat) :=
  copy <- iter_incr b it ;; Done (copy, it).
(** [for (std::size_t p : b.IterBits())]: the positions visited. *)
Fixpoint iter_loop (fuel : nat) (b : bitset) (it : option nat) : outcome (list nat) :=
  match it with
  | None => Done []
  | Some p => match fuel with
    | O => Fault FDiverge
    | S f => nx <- iter_incr b it ;; r <- iter_loop f b nx ;; Done (p :: r)
    end
  end.
Definition IterBits (b : bitset) : outcome (list nat) := iter_loop (bitCount b) b (iter_begin b).

(** Bitset.inl 505-518 *)
Fixpoint intersects_loop (a b : bitset) (l : list nat) : outcome bool :=
  match l with
  | [] => Done false
  | i :: r => x <- GetBlock a i ;; y <- GetBlock b i ;;
              if negb (N.land x y =? 0)%N then Done true else intersects_loop a b r
  end.
Definition Intersects (a b : bitset) : outcome bool :=
  intersects_loop a b (range 0 (Nat.min (GetBlockCount a) (GetBlockCount b))).

(** Bitset.inl 803-816 *)
Fixpoint testall_loop (b : bitset) (lastMask : N) (l : list nat) : outcome bool :=
  match l with
  | [] => Done true
  | i :: r =>
    let mask := if i =? length (blocks b) - 1 then lastMask else fullBitMask in
    x <- vget (blocks b) i ;;
    if negb (x =? mask)%N then Done false else testall_loop b lastMask r
  end.
Definition TestAll (b : bitset) : outcome bool :=
  m <- GetLastBlockMask b ;; testall_loop b m (range 0 (length (blocks b))).

(** Bitset.inl 823-835 *)
Definition TestAny (b : bitset) : bool := existsb (fun x => negb (x =? 0)%N) (blocks b).
(** Bitset.inl 842-845 *)
Definition TestNone (b : bitset) : bool := negb (TestAny b).

(** Bitset.inl 589-605 *)
Fixpoint reverse_loop (fuel : nat) (b : bitset) (i j : nat) : outcome bitset :=
  if i <? j then
    match fuel with
    | O => Fault FDiverge
    | S f =>
      bit1 <- Test b i ;;
      bit2 <- Test b j ;;
      b1 <- Set_ b i bit2 ;;
      b2 <- Set_ b1 j bit1 ;;
      reverse_loop f b2 (i + 1) (j - 1)
    end
  else Done b.
Definition Reverse (b : bitset) : outcome bitset :=
  if bitCount b =? 0 then Done b
  else reverse_loop (bitCount b) b 0 (bitCount b - 1).

(** Bitset.inl 671-713 *)
Definition ShiftLeft (b : bitset) (pos : nat) : outcome bitset :=
  if pos =? 0 then Done b
  else if bitCount b <=? pos then ResetAll b
  else
    let blockShift := pos / w in
    let remainder := pos mod w in
    let size := length (blocks b) in
    l <- (if negb (remainder =? 0) then
            let lastIndex := size - 1 in
            let remaining := w - remainder in
            (* for (i = lastIndex - blockShift; i > 0; --i), 689-690 *)
            l <- foreach (rev (seq 1 (lastIndex - blockShift))) (fun l i =>
                   x <- vget l i ;; y <- vget l (i - 1) ;;
                   x' <- shl x remainder ;; y' <- shr y remaining ;;
                   vset l (i + blockShift) (N.lor x' y')) (blocks b) ;;
            x <- vget l 0 ;;
            x' <- shl x remainder ;;
            l <- vset l blockShift x' ;;
            (* std::fill_n(begin, blockShift, 0), 694 *)
            foreach (range 0 blockShift) (fun l i => vset l i 0%N) l
          else
            (* reverse iterators, 698-709: k is the distance from rbegin *)
            foreach (range 0 size) (fun l k =>
              if k + blockShift <? size then
                x <- vget l (size - 1 - (k + blockShift)) ;; vset l (size - 1 - k) x
              else vset l (size - 1 - k) 0%N) (blocks b)) ;;
    ResetExtraBits (mkB l (bitCount b)).

(** Bitset.inl 725-767 *)
Definition ShiftRight (b : bitset) (pos : nat) : outcome bitset :=
  if pos =? 0 then Done b
  else if bitCount b <=? pos then ResetAll b
  else
    let blockShift := pos / w in
    let remainder := pos mod w in
    let size := length (blocks b) in
    l <- (if negb (remainder =? 0) then
            let lastIndex := size - 1 in
            let remaining := w - remainder in
            l <- foreach (range blockShift lastIndex) (fun l i =>
                   x <- vget l i ;; y <- vget l (i + 1) ;;
                   x' <- shr x remainder ;; y' <- shl y remaining ;;
                   vset l (i - blockShift) (N.lor x' y')) (blocks b) ;;
            x <- vget l lastIndex ;;
            x' <- shr x remainder ;;
            l <- vset l (lastIndex - blockShift) x' ;;
            (* std::fill_n(begin + (size - blockShift), blockShift, 0), 748 *)
            foreach (range (size - blockShift) size) (fun l i => vset l i 0%N) l
          else
            foreach (range 0 size) (fun l k =>
              if k + blockShift <? size then
                x <- vget l (k + blockShift) ;; vset l k x
              else vset l k 0%N) (blocks b)) ;;
    ResetExtraBits (mkB l (bitCount b)).

(** Bitset.inl 912-922 *)
Definition UnboundedSet (b : bitset) (bit : nat) (val : bool) : outcome bitset :=
  if bit <? bitCount b then Set_ b bit val
  else if val then b' <- Resize b (bit + 1) false ;; Set_ b' bit true
  else Done b.
(** Bitset.inl 896-899 *)
Definition UnboundedReset (b : bitset) (bit : nat) : outcome bitset := UnboundedSet b bit false.
(** Bitset.inl 933-939 *)
Definition UnboundedTest (b : bitset) (bit : nat) : outcome bool :=
  if bit <? bitCount b then Test b bit else Done false.

(** Bitset(const char*, size_t), Bitset.inl 67-90; characters are the usual codes, '0' = 48, '1' = 49. *)
Definition of_string (s : list N) : outcome bitset :=
  let n := length s in
  foreach (range 0 n) (fun b i =>
    c <- vget s i ;;
    if (c =? 49)%N then Set_ b (bitCount b - i - 1) true
    else if (c =? 48)%N then Done b
    else Fault FAssert) (mkB (vresize [] (ComputeBlockCount n) 0%N) n).

(** Bitset.inl 873-884 *)
Definition ToString (b : bitset) : outcome (list N) :=
  foreach (range 0 (bitCount b)) (fun str i =>
    t <- Test b i ;;
    if (t : bool) then vset str (bitCount b - i - 1) 49%N else Done str) (repeat 48%N (bitCount b)).

(** Bitset(T value), Bitset.inl 120-138, for an integer type of [tw] bits.
    [value] is the value converted to Block when the type is not wider (so a negative value is sign-extended). *)
Definition of_int (tw : nat) (value : Z) : outcome bitset :=
  if tw <=? w then Done (mkB [Z.to_N (cast block_ty value)] tw)
  else foreach (range 0 tw) (fun b bitPos =>
         if Z.testbit value (Z.of_nat bitPos) then UnboundedSet b bitPos true else Done b) empty.

(** To<T>(), Bitset.inl 855-866, for an unsigned type of [tw] bits. *)
Definition To (tw : nat) (b : bitset) : outcome N :=
  assert (bitCount b <=? tw) ;;;
  foreach (range 0 (length (blocks b))) (fun value i =>
    x <- vget (blocks b) i ;;
    if i * w <? Nat.max tw 32
    then Done (N.lor value (N.shiftl (x mod 2 ^ N.of_nat tw) (N.of_nat (i * w))) mod 2 ^ N.of_nat tw)%N
    else Fault FUB) 0%N.

(** AppendBits(T bits, bitCount), Bitset.inl 156-191, [tw] = BitCount<T>. *)
Definition AppendBits (tw : nat) (b : bitset) (bits0 : N) (n0 : nat) : outcome bitset :=
  let bitShift := bitCount b mod w in
  let count := bitCount b + n0 in
  '(l, bits, n) <-
    (if negb (bitShift =? 0) then
       let remainingBits := w - bitShift in
       x <- vget (blocks b) (length (blocks b) - 1) ;;
       s <- shl (trunc bits0) bitShift ;;
       l <- vset (blocks b) (length (blocks b) - 1) (N.lor x s) ;;
       Done (l, (if remainingBits <? tw then N.shiftr bits0 (N.of_nat remainingBits) else 0%N),
             n0 - Nat.min remainingBits n0)
     else Done (blocks b, bits0, n0)) ;;
  if 0 <? n then
    let blockCount := ComputeBlockCount n in
    '(l, bits, n) <-
      foreach (range 0 (blockCount - 1)) (fun '(l, bits, n) _ =>
        Done (l ++ [trunc bits], (if w <? tw then N.shiftr bits (N.of_nat w) else 0%N), n - w)) (l, bits, n) ;;
    one <- shlp 1 n ;;
    Done (mkB (l ++ [trunc (N.land bits (one - 1))]) count)
  else Done (mkB l count).

(** Write(PointerSequence, bitCount), Bitset.inl 366-397.  The memory is a list of bytes, a pointer is an
    index into it; reading outside is undefined.  The first AppendBits receives a promoted Block. *)
Definition Write (mem : list N) (b : bitset) (seq : nat * nat) (n0 : nat) : outcome (bitset * (nat * nat)) :=
  let '(ptr, second) := seq in
  assert (second <? 8) ;;;
  let total := second + n0 in
  let endPtr := ptr + (if total =? 0 then 0 else (total - 1) / 8) in
  let nextPtr := endPtr + (if total mod 8 =? 0 then 1 else 0) in
  '(b, p, n) <-
    (if negb (second =? 0) then
       let mask := N.shiftl (N.ones (N.of_nat (8 - second))) (N.of_nat second) in
       let readCount := Nat.min n0 (8 - second) in
       byte <- vget mem ptr ;;
       v <- shr (trunc (N.land byte mask)) second ;;
       b' <- AppendBits pw b v readCount ;;
       Done (b', ptr + 1, n0 - readCount)
     else Done (b, ptr, n0)) ;;
  '(b, n) <-
    foreach (range p (endPtr + 1)) (fun '(b, n) p =>
      let bitToRead := Nat.min n 8 in
      byte <- vget mem p ;;
      b' <- AppendBits 8 b byte bitToRead ;;
      Done (b', n - bitToRead)) (b, n) ;;
  Done (b, (nextPtr, total mod 8)).

(** FromPointer, Bitset.inl 1138-1148 *)
Definition FromPointer (mem : list N) (ptr n : nat) : outcome (bitset * (nat * nat)) :=
  Write mem empty (ptr, 0) n.

(** ** Comparisons *)
(** operator==, Bitset.inl 1484-1507 *)
Fixpoint eq_common (a b : bitset) (l : list nat) : outcome bool :=
  match l with
  | [] => Done true
  | i :: r => x <- GetBlock a i ;; y <- GetBlock b i ;;
              if negb (x =? y)%N then Done false else eq_common a b r
  end.
Fixpoint all_zero (g : bitset) (l : list nat) : outcome bool :=
  match l with
  | [] => Done true
  | i :: r => x <- GetBlock g i ;; if negb (x =? 0)%N then Done false else all_zero g r
  end.
Definition equals (a b : bitset) : outcome bool :=
  let '(greater, lesser) := if GetBlockCount b <? GetBlockCount a then (a, b) else (b, a) in
  c <- eq_common a b (range 0 (GetBlockCount lesser)) ;;
  if (c : bool) then all_zero greater (range (GetBlockCount lesser) (GetBlockCount greater)) else Done false.

(** operator<, Bitset.inl 1530-1554.  The first loop starts at i = maxBlockCount, out of range:
    GetBlock(i) fails its assertion as soon as the block counts differ. *)
Fixpoint less_common (a b : bitset) (l : list nat) : outcome bool :=
  match l with
  | [] => Done false
  | index :: r => x <- GetBlock a index ;; y <- GetBlock b index ;;
                  if (x <? y)%N then Done true else less_common a b r
  end.
Definition less (a b : bitset) : outcome bool :=
  let '(greater, lesser) := if GetBlockCount b <? GetBlockCount a then (a, b) else (b, a) in
  let maxc := GetBlockCount greater in
  let minc := GetBlockCount lesser in
  (if minc <? maxc then x <- GetBlock greater maxc ;; Fault FDiverge else Done tt) ;;;
  less_common a b (rev (range 0 minc)).

(** ** operator[] and the Bit proxy, Bitset.inl 946-949, 1249-1423: a block index and a mask. *)
Definition bit_ref (b : bitset) (index : nat) : outcome (nat * N) :=
  assert_ref <- require (GetBlockIndex index <? length (blocks b)) ;;
  m <- shl 1 (GetBitIndex index) ;;
  Done (GetBlockIndex index, m).
Definition Bit_Test (b : bitset) (r : nat * N) : outcome bool :=
  x <- vget (blocks b) (fst r) ;; Done (negb (N.land x (snd r) =? 0)%N).
Definition Bit_Set (b : bitset) (r : nat * N) (val : bool) : outcome bitset :=
  x <- vget (blocks b) (fst r) ;;
  let minus_val := if val then fullBitMask else 0%N in
  l <- vset (blocks b) (fst r) (N.lor (N.land x (bnot (snd r))) (N.land minus_val (snd r))) ;;
  Done (mkB l (bitCount b)).
Definition Bit_Flip (b : bitset) (r : nat * N) : outcome bitset :=
  x <- vget (blocks b) (fst r) ;;
  l <- vset (blocks b) (fst r) (N.lxor x (snd r)) ;; Done (mkB l (bitCount b)).
Definition Bit_Reset (b : bitset) (r : nat * N) : outcome bitset := Bit_Set b r false.
Definition Bit_or (b : bitset) (r : nat * N) (val : bool) : outcome bitset :=
  t <- Bit_Test b r ;; Bit_Set b r (if val then true else t).
Definition Bit_and (b : bitset) (r : nat * N) (val : bool) : outcome bitset :=
  t <- Bit_Test b r ;; Bit_Set b r (if val then t else false).
Definition Bit_xor (b : bitset) (r : nat * N) (val : bool) : outcome bitset :=
  t <- Bit_Test b r ;; Bit_Set b r (if val then negb t else t).
Definition Bit_minus (b : bitset) (r : nat * N) (val : bool) : outcome bitset :=
  t <- Bit_Test b r ;; Bit_Set b r (if val then false else t).

(** ** Logical operations on a store of bitsets, so that destination and operands may alias *)
Notation store := (nat -> bitset).
Definition sput (st : store) (d : nat) (b : bitset) : store := fun r => if r =? d then b else st r.
Definition sput_block (st : store) (d i : nat) (x : N) : outcome store :=
  l <- vset (blocks (st d)) i x ;; Done (sput st d (mkB l (bitCount (st d)))).
Definition s_ResetExtraBits (st : store) (d : nat) : outcome store :=
  b <- ResetExtraBits (st d) ;; Done (sput st d b).

(** PerformsAND, Bitset.inl 408-424 *)
Definition PerformsAND (st : store) (d a b : nat) : outcome store :=
  let minc := Nat.min (GetBlockCount (st a)) (GetBlockCount (st b)) in
  let maxc := Nat.max (GetBlockCount (st a)) (GetBlockCount (st b)) in
  let st := sput st d (mkB (vresize (blocks (st d)) maxc 0%N) (bitCount (st d))) in
  let st := sput st d (mkB (blocks (st d)) (Nat.max (GetSize (st a)) (GetSize (st b)))) in
  st <- foreach (range 0 minc) (fun st i =>
          x <- GetBlock (st a) i ;; y <- GetBlock (st b) i ;; sput_block st d i (N.land x y)) st ;;
  st <- foreach (range minc maxc) (fun st i => sput_block st d i 0%N) st ;;
  s_ResetExtraBits st d.

(** PerformsNOT, Bitset.inl 432-441 *)
Definition PerformsNOT (st : store) (d a : nat) : outcome store :=
  let st := sput st d (mkB (vresize (blocks (st d)) (GetBlockCount (st a)) 0%N) (bitCount (st d))) in
  let st := sput st d (mkB (blocks (st d)) (GetSize (st a))) in
  st <- foreach (range 0 (length (blocks (st d)))) (fun st i =>
          x <- GetBlock (st a) i ;; sput_block st d i (bnot x)) st ;;
  s_ResetExtraBits st d.

(** PerformsOR, Bitset.inl 452-469 and PerformsXOR, 480-497 (same text up to the operator) *)
Definition PerformsOp (op : N -> N -> N) (st : store) (d a b : nat) : outcome store :=
  let greater := if GetSize (st b) <? GetSize (st a) then a else b in
  let lesser := if GetSize (st b) <? GetSize (st a) then b else a in
  let maxc := GetBlockCount (st greater) in
  let minc := GetBlockCount (st lesser) in
  let st := sput st d (mkB (vresize (blocks (st d)) maxc 0%N) (bitCount (st d))) in
  let st := sput st d (mkB (blocks (st d)) (GetSize (st greater))) in
  st <- foreach (range 0 minc) (fun st i =>
          x <- GetBlock (st a) i ;; y <- GetBlock (st b) i ;; sput_block st d i (op x y)) st ;;
  st <- foreach (range minc maxc) (fun st i =>
          x <- GetBlock (st greater) i ;; sput_block st d i x) st ;;
  s_ResetExtraBits st d.
Definition PerformsOR := PerformsOp N.lor.
Definition PerformsXOR := PerformsOp N.lxor.

(** Swap, Bitset.inl 775-779 (also std::swap) *)
Definition Swap (st : store) (a b : nat) : store :=
  let x := st a in let y := st b in sput (sput st a y) b x.

(** Defaulted move construction / assignment, Bitset.hpp 38, 95: m_blocks is moved (the std::vector source is
    left empty) and m_bitCount, a plain integer, is copied.  [move_assign st d s] with d <> s. *)
Definition move_assign (st : store) (d s : nat) : store :=
  let x := st s in sput (sput st d x) s (mkB [] (bitCount x)).

End Model.
