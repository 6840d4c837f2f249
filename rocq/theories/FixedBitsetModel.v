(** Model of FixedBitset and HybridBitset (Bitset.hpp 146-150): Bitset.inl with a FixedVector or HybridVector of blocks as container.
    The members are those of BitsetModel.v, written with the calls they make on m_blocks (VectorModel.v); the expressions on blocks and
    indices are shared with BitsetModel.v.
    Simplification: an iterator of the container is its index. *)
From Verif Require Import Base CInt MathModel BitsetModel VectorModel.
Open Scope nat_scope.

(** Bitset.hpp 146-150: the template argument of the container, [Capacity] being a number of bits. *)
Definition block_capacity (Capacity : nat) : nat := (Capacity + 7) / 8.

(** Bitset.hpp 141-142 *)
Record fbitset := FB { fblocks : fvec N; fcount : nat }.

Section Model.
(** HybridVector and not FixedVector; the capacity of the container; bits per block. *)
Variables (has : bool) (cap w : nat).

(** m_blocks[i] and *it read; a moved-from block is never read back (the theorems show that no fault arises). *)
Definition value (o : option N) : outcome N := match o with Some x => Done x | None => Fault FUB end.
Definition bget (v : fvec N) (i : nat) : outcome N := o <- fv_at has v i ;; value o.
Definition iget (v : fvec N) (i : nat) : outcome N := o <- fv_load has v i ;; value o.
Definition bset (v : fvec N) (i : nat) (x : N) : outcome (fvec N) := fv_set has v i x.
Definition iset (v : fvec N) (i : nat) (x : N) : outcome (fvec N) := fv_store has v i (Some x).
Notation size := (fv_size has).

Definition fb_empty : fbitset := FB (fv_new cap) 0.

(** 1185-1189 *)
Definition fb_mask (n : nat) : outcome N := GetLastBlockMask w (mkB [] n).
(** 1195-1199 *)
Definition fb_ResetExtraBits (b : fbitset) : outcome fbitset :=
  if fv_empty has (fblocks b) then Done b
  else
    m <- fb_mask (fcount b) ;;
    o <- fv_back has (fblocks b) ;; x <- value o ;;
    v <- iset (fblocks b) (size (fblocks b) - 1) (N.land x m) ;;
    Done (FB v (fcount b)).

(** 544-559 *)
Definition fb_Resize (b : fbitset) (n : nat) (defaultVal : bool) : outcome fbitset :=
  let remainingBits := GetBitIndex w (fcount b) in
  let fill := if defaultVal then fullBitMask w else 0%N in
  v <- (if (fcount b <? n) && (0 <? remainingBits) && defaultVal then
          if size (fblocks b) =? 0 then Fault FUB else
          let last := size (fblocks b) - 1 in
          v <- fv_resize_with has cap (fblocks b) (ComputeBlockCount w n) (ByCopy fill) ;;
          m <- shl w (fullBitMask w) remainingBits ;;
          x <- bget v last ;;
          bset v last (N.lor x m)
        else fv_resize_with has cap (fblocks b) (ComputeBlockCount w n) (ByCopy fill)) ;;
  fb_ResetExtraBits (FB v n).

(** 39-44 *)
Definition fb_make (n : nat) (val : bool) : outcome fbitset := fb_Resize fb_empty n val.
(** 204-208 *)
Definition fb_Clear (b : fbitset) : outcome fbitset := v <- fv_clear has (fblocks b) ;; Done (FB v 0).

(** 631-641 *)
Definition fb_Set (b : fbitset) (bit : nat) (val : bool) : outcome fbitset :=
  assert (bit <? fcount b) ;;;
  x <- bget (fblocks b) (GetBlockIndex w bit) ;;
  mask <- shl w 1 (GetBitIndex w bit) ;;
  let minus_val := if val then fullBitMask w else 0%N in
  v <- bset (fblocks b) (GetBlockIndex w bit) (N.lor (N.land x (bnot w mask)) (N.land minus_val mask)) ;;
  Done (FB v (fcount b)).

(** 613-618: std::fill *)
Definition fb_SetAll (b : fbitset) (val : bool) : outcome fbitset :=
  v <- foreach (range 0 (size (fblocks b))) (fun v i => iset v i (if val then fullBitMask w else 0%N)) (fblocks b) ;;
  if val then fb_ResetExtraBits (FB v (fcount b)) else Done (FB v (fcount b)).
Definition fb_ResetAll (b : fbitset) : outcome fbitset := fb_SetAll b false.
Definition fb_ResetBit (b : fbitset) (bit : nat) : outcome fbitset := fb_Set b bit false.

(** 231-237 *)
Definition fb_Flip (b : fbitset) : outcome fbitset :=
  v <- foreach (range 0 (size (fblocks b))) (fun v i => x <- iget v i ;; iset v i (N.lxor x (fullBitMask w))) (fblocks b) ;;
  fb_ResetExtraBits (FB v (fcount b)).

(** 792-796 *)
Definition fb_Test (b : fbitset) (bit : nat) : outcome bool :=
  assert (bit <? fcount b) ;;;
  x <- bget (fblocks b) (GetBlockIndex w bit) ;;
  m <- shl w 1 (GetBitIndex w bit) ;;
  Done (negb (N.land x m =? 0)%N).

(** 291-305 *)
Definition fb_GetBlock (b : fbitset) (i : nat) : outcome N := assert (i <? size (fblocks b)) ;;; bget (fblocks b) i.
Definition fb_GetBlockCount (b : fbitset) : nat := size (fblocks b).
Definition fb_GetSize (b : fbitset) : nat := fcount b.

(** 652-659 *)
Definition fb_SetBlock (b : fbitset) (i : nat) (block : N) : outcome fbitset :=
  assert (i <? size (fblocks b)) ;;;
  v <- bset (fblocks b) i (trunc w block) ;;
  if i =? size v - 1 then fb_ResetExtraBits (FB v (fcount b)) else Done (FB v (fcount b)).

(** 216-223 *)
Definition fb_Count (b : fbitset) : outcome nat :=
  foreach (range 0 (size (fblocks b))) (fun c i => x <- bget (fblocks b) i ;; Done (c + block_popcount w x)) 0.

(** 1157-1178 *)
Fixpoint fb_first (v : fvec N) (l : list nat) : outcome (option (nat * N)) :=
  match l with
  | [] => Done None
  | i :: r => x <- bget v i ;; if (x =? 0)%N then fb_first v r else Done (Some (i, x))
  end.
Definition fb_FindFirstFrom (b : fbitset) (blockIndex : nat) : outcome (option nat) :=
  if size (fblocks b) <=? blockIndex then Done None
  else
    f <- fb_first (fblocks b) (range blockIndex (size (fblocks b))) ;;
    Done match f with None => None | Some (i, block) => Some (block_ffs w block + i * w - 1) end.
(** 245-280 *)
Definition fb_FindFirst (b : fbitset) : outcome (option nat) := fb_FindFirstFrom b 0.
Definition fb_FindNext (b : fbitset) (bit0 : nat) : outcome (option nat) :=
  assert (bit0 <? fcount b) ;;;
  let bit := bit0 + 1 in
  if fcount b <=? bit then Done None
  else
    x <- bget (fblocks b) (GetBlockIndex w bit) ;;
    block <- shr w x (GetBitIndex w bit) ;;
    if negb (block =? 0)%N then Done (Some (block_ffs w block + bit - 1))
    else fb_FindFirstFrom b (GetBlockIndex w bit + 1).

(** 505-518 *)
Fixpoint fb_intersects_loop (a b : fbitset) (l : list nat) : outcome bool :=
  match l with
  | [] => Done false
  | i :: r => x <- fb_GetBlock a i ;; y <- fb_GetBlock b i ;;
              if negb (N.land x y =? 0)%N then Done true else fb_intersects_loop a b r
  end.
Definition fb_Intersects (a b : fbitset) : outcome bool :=
  fb_intersects_loop a b (range 0 (Nat.min (fb_GetBlockCount a) (fb_GetBlockCount b))).

(** 803-845 *)
Fixpoint fb_testall_loop (b : fbitset) (lastMask : N) (l : list nat) : outcome bool :=
  match l with
  | [] => Done true
  | i :: r =>
    let mask := if i =? size (fblocks b) - 1 then lastMask else fullBitMask w in
    x <- bget (fblocks b) i ;;
    if negb (x =? mask)%N then Done false else fb_testall_loop b lastMask r
  end.
Definition fb_TestAll (b : fbitset) : outcome bool :=
  m <- fb_mask (fcount b) ;; fb_testall_loop b m (range 0 (size (fblocks b))).
Definition fb_TestAny (b : fbitset) : outcome bool :=
  if fv_empty has (fblocks b) then Done false
  else f <- fb_first (fblocks b) (range 0 (size (fblocks b))) ;; Done match f with Some _ => true | None => false end.
Definition fb_TestNone (b : fbitset) : outcome bool := t <- fb_TestAny b ;; Done (negb t).

(** 589-605 *)
Fixpoint fb_reverse_loop (fuel : nat) (b : fbitset) (i j : nat) : outcome fbitset :=
  if i <? j then
    match fuel with
    | O => Fault FDiverge
    | S f =>
      bit1 <- fb_Test b i ;;
      bit2 <- fb_Test b j ;;
      b1 <- fb_Set b i bit2 ;;
      b2 <- fb_Set b1 j bit1 ;;
      fb_reverse_loop f b2 (i + 1) (j - 1)
    end
  else Done b.
Definition fb_Reverse (b : fbitset) : outcome fbitset :=
  if fcount b =? 0 then Done b
  else fb_reverse_loop (fcount b) b 0 (fcount b - 1).

(** 671-713 *)
Definition fb_ShiftLeft (b : fbitset) (pos : nat) : outcome fbitset :=
  if pos =? 0 then Done b
  else if fcount b <=? pos then fb_ResetAll b
  else
    let blockShift := pos / w in
    let remainder := pos mod w in
    let n := size (fblocks b) in
    v <- (if negb (remainder =? 0) then
            let lastIndex := n - 1 in
            let remaining := w - remainder in
            v <- foreach (rev (seq 1 (lastIndex - blockShift))) (fun v i =>
                   x <- bget v i ;; y <- bget v (i - 1) ;;
                   x' <- shl w x remainder ;; y' <- shr w y remaining ;;
                   bset v (i + blockShift) (N.lor x' y')) (fblocks b) ;;
            x <- bget v 0 ;;
            x' <- shl w x remainder ;;
            v <- bset v blockShift x' ;;
            foreach (range 0 blockShift) (fun v i => iset v i 0%N) v
          else
            foreach (range 0 n) (fun v k =>
              if k + blockShift <? n then
                x <- iget v (n - 1 - (k + blockShift)) ;; iset v (n - 1 - k) x
              else iset v (n - 1 - k) 0%N) (fblocks b)) ;;
    fb_ResetExtraBits (FB v (fcount b)).

(** 725-767 *)
Definition fb_ShiftRight (b : fbitset) (pos : nat) : outcome fbitset :=
  if pos =? 0 then Done b
  else if fcount b <=? pos then fb_ResetAll b
  else
    let blockShift := pos / w in
    let remainder := pos mod w in
    let n := size (fblocks b) in
    v <- (if negb (remainder =? 0) then
            let lastIndex := n - 1 in
            let remaining := w - remainder in
            v <- foreach (range blockShift lastIndex) (fun v i =>
                   x <- bget v i ;; y <- bget v (i + 1) ;;
                   x' <- shr w x remainder ;; y' <- shl w y remaining ;;
                   bset v (i - blockShift) (N.lor x' y')) (fblocks b) ;;
            x <- bget v lastIndex ;;
            x' <- shr w x remainder ;;
            v <- bset v (lastIndex - blockShift) x' ;;
            foreach (range (n - blockShift) n) (fun v i => iset v i 0%N) v
          else
            foreach (range 0 n) (fun v k =>
              if k + blockShift <? n then
                x <- iget v (k + blockShift) ;; iset v k x
              else iset v k 0%N) (fblocks b)) ;;
    fb_ResetExtraBits (FB v (fcount b)).

(** 896-939 *)
Definition fb_UnboundedSet (b : fbitset) (bit : nat) (val : bool) : outcome fbitset :=
  if bit <? fcount b then fb_Set b bit val
  else if val then b' <- fb_Resize b (bit + 1) false ;; fb_Set b' bit true
  else Done b.
Definition fb_UnboundedReset (b : fbitset) (bit : nat) : outcome fbitset := fb_UnboundedSet b bit false.
Definition fb_UnboundedTest (b : fbitset) (bit : nat) : outcome bool :=
  if bit <? fcount b then fb_Test b bit else Done false.

(** 67-90 *)
Definition fb_of_string (s : list N) : outcome fbitset :=
  let n := length s in
  v <- fv_resize_with has cap (fv_new cap) (ComputeBlockCount w n) (ByCopy 0%N) ;;
  foreach (range 0 n) (fun b i =>
    c <- vget s i ;;
    if (c =? 49)%N then fb_Set b (fcount b - i - 1) true
    else if (c =? 48)%N then Done b
    else Fault FAssert) (FB v n).
(** 873-884 *)
Definition fb_ToString (b : fbitset) : outcome (list N) :=
  foreach (range 0 (fcount b)) (fun str i =>
    t <- fb_Test b i ;;
    if (t : bool) then vset str (fcount b - i - 1) 49%N else Done str) (repeat 48%N (fcount b)).

Definition push (v : fvec N) (x : N) : outcome (fvec N) := ' (v, _) <- fv_push_back has cap v (ByMove x) ;; Done v.
(** 120-138 *)
Definition fb_of_int (tw : nat) (value : Z) : outcome fbitset :=
  if tw <=? w then v <- push (fv_new cap) (Z.to_N (cast (block_ty w) value)) ;; Done (FB v tw)
  else foreach (range 0 tw) (fun b bitPos =>
         if Z.testbit value (Z.of_nat bitPos) then fb_UnboundedSet b bitPos true else Done b) fb_empty.
(** 855-866 *)
Definition fb_To (tw : nat) (b : fbitset) : outcome N :=
  assert (fcount b <=? tw) ;;;
  foreach (range 0 (size (fblocks b))) (fun value i =>
    x <- bget (fblocks b) i ;;
    if i * w <? Nat.max tw 32
    then Done (N.lor value (N.shiftl (x mod 2 ^ N.of_nat tw) (N.of_nat (i * w))) mod 2 ^ N.of_nat tw)%N
    else Fault FUB) 0%N.

(** 156-191 *)
Definition fb_AppendBits (tw : nat) (b : fbitset) (bits0 : N) (n0 : nat) : outcome fbitset :=
  let bitShift := fcount b mod w in
  let count := fcount b + n0 in
  '(v, bits, n) <-
    (if negb (bitShift =? 0) then
       let remainingBits := w - bitShift in
       o <- fv_back has (fblocks b) ;; x <- value o ;;
       s <- shl w (trunc w bits0) bitShift ;;
       v <- iset (fblocks b) (size (fblocks b) - 1) (N.lor x s) ;;
       Done (v, (if remainingBits <? tw then N.shiftr bits0 (N.of_nat remainingBits) else 0%N),
             n0 - Nat.min remainingBits n0)
     else Done (fblocks b, bits0, n0)) ;;
  if 0 <? n then
    let blockCount := ComputeBlockCount w n in
    '(v, bits, n) <-
      foreach (range 0 (blockCount - 1)) (fun '(v, bits, n) _ =>
        v <- push v (trunc w bits) ;;
        Done (v, (if w <? tw then N.shiftr bits (N.of_nat w) else 0%N), n - w)) (v, bits, n) ;;
    one <- shlp w 1 n ;;
    v <- push v (trunc w (N.land bits (one - 1))) ;;
    Done (FB v count)
  else Done (FB v count).

(** 366-397 *)
Definition fb_Write (mem : list N) (b : fbitset) (seq : nat * nat) (n0 : nat) : outcome (fbitset * (nat * nat)) :=
  let '(ptr, second) := seq in
  assert (second <? 8) ;;;
  let total := second + n0 in
  let endPtr := ptr + (if total =? 0 then 0 else (total - 1) / 8) in
  let nextPtr := endPtr + (if total mod 8 =? 0 then 1 else 0) in
  '(b, p, n) <-
    (if negb (second =? 0) then
       let mask := N.shiftl (N.ones (N.of_nat (8 - second))) (N.of_nat second) in
       let readCount := Nat.min n0 (8 - second) in
       byte <- vget mem ptr ;;
       v <- shr w (trunc w (N.land byte mask)) second ;;
       b' <- fb_AppendBits (pw w) b v readCount ;;
       Done (b', ptr + 1, n0 - readCount)
     else Done (b, ptr, n0)) ;;
  '(b, n) <-
    foreach (range p (endPtr + 1)) (fun '(b, n) p =>
      let bitToRead := Nat.min n 8 in
      byte <- vget mem p ;;
      b' <- fb_AppendBits 8 b byte bitToRead ;;
      Done (b', n - bitToRead)) (b, n) ;;
  Done (b, (nextPtr, total mod 8)).

(** 1484-1507 *)
Fixpoint fb_eq_common (a b : fbitset) (l : list nat) : outcome bool :=
  match l with
  | [] => Done true
  | i :: r => x <- fb_GetBlock a i ;; y <- fb_GetBlock b i ;;
              if negb (x =? y)%N then Done false else fb_eq_common a b r
  end.
Fixpoint fb_all_zero (g : fbitset) (l : list nat) : outcome bool :=
  match l with
  | [] => Done true
  | i :: r => x <- fb_GetBlock g i ;; if negb (x =? 0)%N then Done false else fb_all_zero g r
  end.
Definition fb_equals (a b : fbitset) : outcome bool :=
  let '(greater, lesser) := if fb_GetBlockCount b <? fb_GetBlockCount a then (a, b) else (b, a) in
  c <- fb_eq_common a b (range 0 (fb_GetBlockCount lesser)) ;;
  if (c : bool) then fb_all_zero greater (range (fb_GetBlockCount lesser) (fb_GetBlockCount greater)) else Done false.

(** 1530-1554 *)
Fixpoint fb_less_common (a b : fbitset) (l : list nat) : outcome bool :=
  match l with
  | [] => Done false
  | index :: r => x <- fb_GetBlock a index ;; y <- fb_GetBlock b index ;;
                  if (x <? y)%N then Done true else fb_less_common a b r
  end.
Definition fb_less (a b : fbitset) : outcome bool :=
  let '(greater, lesser) := if fb_GetBlockCount b <? fb_GetBlockCount a then (a, b) else (b, a) in
  let maxc := fb_GetBlockCount greater in
  let minc := fb_GetBlockCount lesser in
  (if minc <? maxc then x <- fb_GetBlock greater maxc ;; Fault FDiverge else Done tt) ;;;
  fb_less_common a b (rev (range 0 minc)).

(** 946-949, 1249-1423 *)
Definition fb_ref (b : fbitset) (index : nat) : outcome (nat * N) :=
  assert (GetBlockIndex w index <? size (fblocks b)) ;;;
  m <- shl w 1 (GetBitIndex w index) ;;
  Done (GetBlockIndex w index, m).
Definition fb_Bit_Test (b : fbitset) (r : nat * N) : outcome bool :=
  x <- iget (fblocks b) (fst r) ;; Done (negb (N.land x (snd r) =? 0)%N).
Definition fb_Bit_Set (b : fbitset) (r : nat * N) (val : bool) : outcome fbitset :=
  x <- iget (fblocks b) (fst r) ;;
  let minus_val := if val then fullBitMask w else 0%N in
  v <- iset (fblocks b) (fst r) (N.lor (N.land x (bnot w (snd r))) (N.land minus_val (snd r))) ;;
  Done (FB v (fcount b)).
Definition fb_Bit_Flip (b : fbitset) (r : nat * N) : outcome fbitset :=
  x <- iget (fblocks b) (fst r) ;;
  v <- iset (fblocks b) (fst r) (N.lxor x (snd r)) ;; Done (FB v (fcount b)).
Definition fb_Bit_Reset (b : fbitset) (r : nat * N) : outcome fbitset := fb_Bit_Set b r false.
Definition fb_Bit_or (b : fbitset) (r : nat * N) (val : bool) : outcome fbitset :=
  t <- fb_Bit_Test b r ;; fb_Bit_Set b r (if val then true else t).
Definition fb_Bit_and (b : fbitset) (r : nat * N) (val : bool) : outcome fbitset :=
  t <- fb_Bit_Test b r ;; fb_Bit_Set b r (if val then t else false).
Definition fb_Bit_xor (b : fbitset) (r : nat * N) (val : bool) : outcome fbitset :=
  t <- fb_Bit_Test b r ;; fb_Bit_Set b r (if val then negb t else t).
Definition fb_Bit_minus (b : fbitset) (r : nat * N) (val : bool) : outcome fbitset :=
  t <- fb_Bit_Test b r ;; fb_Bit_Set b r (if val then false else t).

(** ** Several bitsets *)
Notation store := (nat -> fbitset).
Definition fput (st : store) (d : nat) (b : fbitset) : store := fun r => if r =? d then b else st r.
Definition fput_block (st : store) (d i : nat) (x : N) : outcome store :=
  v <- bset (fblocks (st d)) i x ;; Done (fput st d (FB v (fcount (st d)))).
(** m_blocks.resize(n); m_bitCount = ... *)
Definition fput_size (st : store) (d n count : nat) : outcome store :=
  v <- fv_resize has cap 0%N (fblocks (st d)) n ;; Done (fput st d (FB v count)).
Definition fput_ResetExtraBits (st : store) (d : nat) : outcome store :=
  b <- fb_ResetExtraBits (st d) ;; Done (fput st d b).

(** 408-424 *)
Definition fb_PerformsAND (st : store) (d a b : nat) : outcome store :=
  let minc := Nat.min (fb_GetBlockCount (st a)) (fb_GetBlockCount (st b)) in
  let maxc := Nat.max (fb_GetBlockCount (st a)) (fb_GetBlockCount (st b)) in
  st <- fput_size st d maxc (Nat.max (fb_GetSize (st a)) (fb_GetSize (st b))) ;;
  st <- foreach (range 0 minc) (fun st i =>
          x <- fb_GetBlock (st a) i ;; y <- fb_GetBlock (st b) i ;; fput_block st d i (N.land x y)) st ;;
  st <- foreach (range minc maxc) (fun st i => fput_block st d i 0%N) st ;;
  fput_ResetExtraBits st d.
(** 432-441 *)
Definition fb_PerformsNOT (st : store) (d a : nat) : outcome store :=
  st <- fput_size st d (fb_GetBlockCount (st a)) (fb_GetSize (st a)) ;;
  st <- foreach (range 0 (size (fblocks (st d)))) (fun st i =>
          x <- fb_GetBlock (st a) i ;; fput_block st d i (bnot w x)) st ;;
  fput_ResetExtraBits st d.
(** 452-497 *)
Definition fb_PerformsOp (op : N -> N -> N) (st : store) (d a b : nat) : outcome store :=
  let greater := if fb_GetSize (st b) <? fb_GetSize (st a) then a else b in
  let lesser := if fb_GetSize (st b) <? fb_GetSize (st a) then b else a in
  let maxc := fb_GetBlockCount (st greater) in
  let minc := fb_GetBlockCount (st lesser) in
  st <- fput_size st d maxc (fb_GetSize (st greater)) ;;
  st <- foreach (range 0 minc) (fun st i =>
          x <- fb_GetBlock (st a) i ;; y <- fb_GetBlock (st b) i ;; fput_block st d i (op x y)) st ;;
  st <- foreach (range minc maxc) (fun st i =>
          x <- fb_GetBlock (st greater) i ;; fput_block st d i x) st ;;
  fput_ResetExtraBits st d.

(** The defaulted copy constructor, Bitset.hpp 37. *)
Definition fb_copy (b : fbitset) : outcome fbitset := v <- fv_copy has cap (fblocks b) ;; Done (FB v (fcount b)).
(** The defaulted copy assignment, Bitset.hpp 94: memberwise; the two bitsets may be the same. *)
Definition fb_assign (st : store) (d s : nat) : outcome store :=
  if d =? s then
    l <- fv_assign has cap [fblocks (st d)] 0 0 ;;
    v <- vget l 0 ;; Done (fput st d (FB v (fcount (st s))))
  else
    l <- fv_assign has cap [fblocks (st d); fblocks (st s)] 0 1 ;;
    v <- vget l 0 ;; Done (fput st d (FB v (fcount (st s)))).
(** The defaulted move assignment, Bitset.hpp 95, from a temporary: d = FixedBitset(...) *)
Definition fb_emplace (st : store) (d : nat) (x : fbitset) : outcome store :=
  l <- fv_move_assign has cap [fblocks (st d); fblocks x] 0 1 ;;
  v <- vget l 0 ;; Done (fput st d (FB v (fcount x))).
(** std::swap: a move construction and two move assignments, of which the first is onto itself when both are the same. *)
Definition swap_blocks (a b : fvec N) : outcome (fvec N * fvec N) :=
  ' (tmp, a) <- fv_move has cap a ;;
  l <- fv_move_assign has cap [a; b; tmp] 0 1 ;;
  l <- fv_move_assign has cap l 1 2 ;;
  a <- vget l 0 ;; b <- vget l 1 ;; Done (a, b).
Definition swap_self (a : fvec N) : outcome (fvec N) :=
  ' (tmp, a) <- fv_move has cap a ;;
  l <- fv_move_assign has cap [a; tmp] 0 0 ;;
  l <- fv_move_assign has cap l 0 1 ;;
  vget l 0.
(** 775-779 *)
Definition fb_Swap (st : store) (a b : nat) : outcome store :=
  if a =? b then v <- swap_self (fblocks (st a)) ;; Done (fput st a (FB v (fcount (st a))))
  else
    ' (x, y) <- swap_blocks (fblocks (st a)) (fblocks (st b)) ;;
    Done (fput (fput st a (FB x (fcount (st b)))) b (FB y (fcount (st a)))).

End Model.
