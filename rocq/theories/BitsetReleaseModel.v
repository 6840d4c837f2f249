(** Bitset as compiled without assertions (NAZARA_NO_ASSERT, or NDEBUG without NAZARA_ENABLE_ASSERTS, Assert.hpp 13-19):
    the functions of BitsetModel.v whose assertions are gone, and those that call them.  [operator[]] of std::vector does not check. *)
From Verif Require Import Base CInt MathModel BitsetModel BitsetHistory.
Open Scope nat_scope.

Section Release.
Variable w : nat.
Notation store := (nat -> bitset).

(** Set(bit, val), Bitset.inl 631-641 *)
Definition rSet (b : bitset) (bit : nat) (val : bool) : outcome bitset :=
  x <- vget (blocks b) (GetBlockIndex w bit) ;;
  mask <- shl w 1 (GetBitIndex w bit) ;;
  let minus_val := if val then fullBitMask w else 0%N in   (* -static_cast<Block>(val) *)
  l <- vset (blocks b) (GetBlockIndex w bit) (N.lor (N.land x (bnot w mask)) (N.land minus_val mask)) ;;
  Done (mkB l (bitCount b)).

Definition rResetBit (b : bitset) (bit : nat) : outcome bitset := rSet b bit false.

(** Bitset.inl 792-796 *)
Definition rTest (b : bitset) (bit : nat) : outcome bool :=
  x <- vget (blocks b) (GetBlockIndex w bit) ;;
  m <- shl w 1 (GetBitIndex w bit) ;;
  Done (negb (N.land x m =? 0)%N).

(** Bitset.inl 291-295 *)
Definition rGetBlock (b : bitset) (i : nat) : outcome N := vget (blocks b) i.

(** Bitset.inl 652-659 *)
Definition rSetBlock (b : bitset) (i : nat) (block : N) : outcome bitset :=
  l <- vset (blocks b) i (trunc w block) ;;
  if i =? length (blocks b) - 1 then ResetExtraBits w (mkB l (bitCount b)) else Done (mkB l (bitCount b)).

(** FindNext, Bitset.inl 260-280.  [None] is npos: ++bit wraps to 0. *)
Definition rFindNext (b : bitset) (bit0 : option nat) : outcome (option nat) :=
  let bit := match bit0 with Some p => p + 1 | None => 0 end in
  if bitCount b <=? bit then Done None
  else
    x <- vget (blocks b) (GetBlockIndex w bit) ;;
    block <- shr w x (GetBitIndex w bit) ;;
    if negb (block =? 0)%N then Done (Some (block_ffs w block + bit - 1))
    else Done (FindFirstFrom w b (GetBlockIndex w bit + 1)).

(** prefix ++ of the iterator, 1442-1446 *)
Definition r_iter_incr (b : bitset) (it : option nat) : outcome (option nat) := rFindNext b it.

(** [for (std::size_t p : b.IterBits())]: the positions visited. *)
Fixpoint r_iter_loop (fuel : nat) (b : bitset) (it : option nat) : outcome (list nat) :=
  match it with
  | None => Done []
  | Some p => match fuel with
    | O => Fault FDiverge
    | S f => nx <- r_iter_incr b it ;; r <- r_iter_loop f b nx ;; Done (p :: r)
    end
  end.

Definition rIterBits (b : bitset) : outcome (list nat) := r_iter_loop (bitCount b) b (iter_begin w b).

(** Bitset.inl 505-518 *)
Fixpoint r_intersects_loop (a b : bitset) (l : list nat) : outcome bool :=
  match l with
  | [] => Done false
  | i :: r => x <- rGetBlock a i ;; y <- rGetBlock b i ;;
              if negb (N.land x y =? 0)%N then Done true else r_intersects_loop a b r
  end.

Definition rIntersects (a b : bitset) : outcome bool :=
  r_intersects_loop a b (range 0 (Nat.min (GetBlockCount a) (GetBlockCount b))).

(** Bitset.inl 589-605 *)
Fixpoint r_reverse_loop (fuel : nat) (b : bitset) (i j : nat) : outcome bitset :=
  if i <? j then
    match fuel with
    | O => Fault FDiverge
    | S f =>
      bit1 <- rTest b i ;;
      bit2 <- rTest b j ;;
      b1 <- rSet b i bit2 ;;
      b2 <- rSet b1 j bit1 ;;
      r_reverse_loop f b2 (i + 1) (j - 1)
    end
  else Done b.

Definition rReverse (b : bitset) : outcome bitset :=
  if bitCount b =? 0 then Done b
  else r_reverse_loop (bitCount b) b 0 (bitCount b - 1).

(** Bitset.inl 912-922 *)
Definition rUnboundedSet (b : bitset) (bit : nat) (val : bool) : outcome bitset :=
  if bit <? bitCount b then rSet b bit val
  else if val then b' <- Resize w b (bit + 1) false ;; rSet b' bit true
  else Done b.

(** Bitset.inl 896-899 *)
Definition rUnboundedReset (b : bitset) (bit : nat) : outcome bitset := rUnboundedSet b bit false.

(** Bitset.inl 933-939 *)
Definition rUnboundedTest (b : bitset) (bit : nat) : outcome bool :=
  if bit <? bitCount b then rTest b bit else Done false.

(** Bitset(const char*, size_t), Bitset.inl 67-90; AssertFailure is a function and stays. *)
Definition r_of_string (s : list N) : outcome bitset :=
  let n := length s in
  foreach (range 0 n) (fun b i =>
    c <- vget s i ;;
    if (c =? 49)%N then rSet b (bitCount b - i - 1) true
    else if (c =? 48)%N then Done b
    else Fault FAssert) (mkB (vresize [] (ComputeBlockCount w n) 0%N) n).

(** Bitset.inl 873-884 *)
Definition rToString (b : bitset) : outcome (list N) :=
  foreach (range 0 (bitCount b)) (fun str i =>
    t <- rTest b i ;;
    if (t : bool) then vset str (bitCount b - i - 1) 49%N else Done str) (repeat 48%N (bitCount b)).

(** Bitset(T value), Bitset.inl 120-138, for an integer type of [tw] bits.
    [value] is the value converted to Block when the type is not wider (so a negative value is sign-extended). *)
Definition r_of_int (tw : nat) (value : Z) : outcome bitset :=
  if tw <=? w then Done (mkB [Z.to_N (cast (block_ty w) value)] tw)
  else foreach (range 0 tw) (fun b bitPos =>
         if Z.testbit value (Z.of_nat bitPos) then rUnboundedSet b bitPos true else Done b) empty.

(** To<T>(), Bitset.inl 855-866, for an unsigned type of [tw] bits. *)
Definition rTo (tw : nat) (b : bitset) : outcome N :=
  foreach (range 0 (length (blocks b))) (fun value i =>
    x <- vget (blocks b) i ;;
    if i * w <? Nat.max tw 32
    then Done (N.lor value (N.shiftl (x mod 2 ^ N.of_nat tw) (N.of_nat (i * w))) mod 2 ^ N.of_nat tw)%N
    else Fault FUB) 0%N.

(** Write, Bitset.inl 366-397; 8 - sequence.second wraps, the mask is 0 from 8 on. *)
Definition rWrite (mem : list N) (b : bitset) (seq : nat * nat) (n0 : nat) : outcome (bitset * (nat * nat)) :=
  let '(ptr, second) := seq in
  let total := second + n0 in
  let endPtr := ptr + (if total =? 0 then 0 else (total - 1) / 8) in
  let nextPtr := endPtr + (if total mod 8 =? 0 then 1 else 0) in
  '(b, p, n) <-
    (if negb (second =? 0) then
       require (second <? 32) ;;;
       let mask := N.shiftl (N.ones (N.of_nat (8 - second))) (N.of_nat second) in
       let readCount := if second <=? 8 then Nat.min n0 (8 - second) else n0 in
       byte <- vget mem ptr ;;
       v <- shr w (trunc w (N.land byte mask)) second ;;
       b' <- AppendBits w (pw w) b v readCount ;;
       Done (b', ptr + 1, n0 - readCount)
     else Done (b, ptr, n0)) ;;
  '(b, n) <-
    foreach (range p (endPtr + 1)) (fun '(b, n) p =>
      let bitToRead := Nat.min n 8 in
      byte <- vget mem p ;;
      b' <- AppendBits w 8 b byte bitToRead ;;
      Done (b', n - bitToRead)) (b, n) ;;
  Done (b, (nextPtr, total mod 8)).

(** operator==, Bitset.inl 1484-1507 *)
Fixpoint r_eq_common (a b : bitset) (l : list nat) : outcome bool :=
  match l with
  | [] => Done true
  | i :: r => x <- rGetBlock a i ;; y <- rGetBlock b i ;;
              if negb (x =? y)%N then Done false else r_eq_common a b r
  end.

Fixpoint r_all_zero (g : bitset) (l : list nat) : outcome bool :=
  match l with
  | [] => Done true
  | i :: r => x <- rGetBlock g i ;; if negb (x =? 0)%N then Done false else r_all_zero g r
  end.

Definition r_equals (a b : bitset) : outcome bool :=
  let '(greater, lesser) := if GetBlockCount b <? GetBlockCount a then (a, b) else (b, a) in
  c <- r_eq_common a b (range 0 (GetBlockCount lesser)) ;;
  if (c : bool) then r_all_zero greater (range (GetBlockCount lesser) (GetBlockCount greater)) else Done false.

(** operator<, Bitset.inl 1530-1554.  The first loop starts at i = maxBlockCount, out of range. *)
Fixpoint r_less_common (a b : bitset) (l : list nat) : outcome bool :=
  match l with
  | [] => Done false
  | index :: r => x <- rGetBlock a index ;; y <- rGetBlock b index ;;
                  if (x <? y)%N then Done true else r_less_common a b r
  end.

Definition r_less (a b : bitset) : outcome bool :=
  let '(greater, lesser) := if GetBlockCount b <? GetBlockCount a then (a, b) else (b, a) in
  let maxc := GetBlockCount greater in
  let minc := GetBlockCount lesser in
  (if minc <? maxc then x <- rGetBlock greater maxc ;; Fault FDiverge else Done tt) ;;;
  r_less_common a b (rev (range 0 minc)).

(** PerformsAND, Bitset.inl 408-424 *)
Definition rPerformsAND (st : store) (d a b : nat) : outcome store :=
  let minc := Nat.min (GetBlockCount (st a)) (GetBlockCount (st b)) in
  let maxc := Nat.max (GetBlockCount (st a)) (GetBlockCount (st b)) in
  let st := sput st d (mkB (vresize (blocks (st d)) maxc 0%N) (bitCount (st d))) in
  let st := sput st d (mkB (blocks (st d)) (Nat.max (GetSize (st a)) (GetSize (st b)))) in
  st <- foreach (range 0 minc) (fun st i =>
          x <- rGetBlock (st a) i ;; y <- rGetBlock (st b) i ;; sput_block st d i (N.land x y)) st ;;
  st <- foreach (range minc maxc) (fun st i => sput_block st d i 0%N) st ;;
  s_ResetExtraBits w st d.

(** PerformsNOT, Bitset.inl 432-441 *)
Definition rPerformsNOT (st : store) (d a : nat) : outcome store :=
  let st := sput st d (mkB (vresize (blocks (st d)) (GetBlockCount (st a)) 0%N) (bitCount (st d))) in
  let st := sput st d (mkB (blocks (st d)) (GetSize (st a))) in
  st <- foreach (range 0 (length (blocks (st d)))) (fun st i =>
          x <- rGetBlock (st a) i ;; sput_block st d i (bnot w x)) st ;;
  s_ResetExtraBits w st d.

(** PerformsOR, Bitset.inl 452-469 and PerformsXOR, 480-497 (same text up to the operator) *)
Definition rPerformsOp (op : N -> N -> N) (st : store) (d a b : nat) : outcome store :=
  let greater := if GetSize (st b) <? GetSize (st a) then a else b in
  let lesser := if GetSize (st b) <? GetSize (st a) then b else a in
  let maxc := GetBlockCount (st greater) in
  let minc := GetBlockCount (st lesser) in
  let st := sput st d (mkB (vresize (blocks (st d)) maxc 0%N) (bitCount (st d))) in
  let st := sput st d (mkB (blocks (st d)) (GetSize (st greater))) in
  st <- foreach (range 0 minc) (fun st i =>
          x <- rGetBlock (st a) i ;; y <- rGetBlock (st b) i ;; sput_block st d i (op x y)) st ;;
  st <- foreach (range minc maxc) (fun st i =>
          x <- rGetBlock (st greater) i ;; sput_block st d i x) st ;;
  s_ResetExtraBits w st d.

Definition rPerformsOR := rPerformsOp N.lor.

Definition rPerformsXOR := rPerformsOp N.lxor.
End Release.

(** The operations of BitsetHistory.v. *)
Section Run.
Variable w : nat.
Definition r_step (st : nat -> bitset) (o : op) : outcome (nat -> bitset) :=
  match o with
  | OMake r n v => at1 st r (make w n v)
  | OString r s => at1 st r (r_of_string w s)
  | OInt r tw v => at1 st r (r_of_int w tw (Z.of_N v))
  | OClear r => Done (sput st r (Clear (st r)))
  | OSet r i v => at1 st r (rSet w (st r) i v)
  | OSetAll r v => at1 st r (SetAll w (st r) v)
  | OReset r i => at1 st r (rResetBit w (st r) i)
  | OFlip r => at1 st r (Flip w (st r))
  | OResize r n v => at1 st r (Resize w (st r) n v)
  | OShl r k => at1 st r (ShiftLeft w (st r) k)
  | OShr r k => at1 st r (ShiftRight w (st r) k)
  | OReverse r => at1 st r (rReverse w (st r))
  | OUSet r i v => at1 st r (rUnboundedSet w (st r) i v)
  | OAppend r tw v n => at1 st r (AppendBits w tw (st r) v n)
  | OAnd d a b => rPerformsAND w st d a b
  | OOr d a b => rPerformsOR w st d a b
  | OXor d a b => rPerformsXOR w st d a b
  | ONot d a => rPerformsNOT w st d a
  | OCopy d s => Done (sput st d (st s))
  | OSwap a b => Done (Swap st a b)
  | OSetBlock r i x => at1 st r (rSetBlock w (st r) i x)
  | OBit r i k => at1 st r (p <- bit_ref w (st r) i ;;
      match k with
      | BSet v => Bit_Set w (st r) p v
      | BReset => Bit_Reset w (st r) p
      | BFlip => Bit_Flip (st r) p
      | BOr v => Bit_or w (st r) p v
      | BAnd v => Bit_and w (st r) p v
      | BXor v => Bit_xor w (st r) p v
      | BMinus v => Bit_minus w (st r) p v
      end)
  | OUReset r i => at1 st r (rUnboundedReset w (st r) i)
  | OWrite r mem ptr offset n => at1 st r (' (b, _) <- rWrite w mem (st r) (ptr, offset) n ;; Done b)
  end.

Fixpoint r_run (st : nat -> bitset) (l : list op) : outcome (nat -> bitset) :=
  match l with [] => Done st | o :: r => st' <- r_step st o ;; r_run st' r end.
End Run.
