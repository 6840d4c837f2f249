(** Model of the growing members of Bitset (Bitset.inl) when the container may fail to get memory ([Container] = std::vector).
    Which allocation fails is decided by a counter: that many calls that grow the container still succeed, the next one throws std::bad_alloc.
    Only the first failure of a call matters, so quantifying over the counter covers every place the exception can come from, and a call that
    finds enough capacity is one that succeeds.
    std::vector::resize and push_back have no effect when they throw ([vector.modifiers], a block is an integer).
    The state after an exception is the pair of data members at that point; the members that do not grow the container are those of BitsetModel.v.
    Not modelled: the defaulted copy assignment (std::vector::operator= promises less) and the constructors (no object is left). *)
From Verif Require Import Base CInt MathModel BitsetModel.
From Verif Require Export ThrowModel.
Open Scope nat_scope.

Section Model.
Variable w : nat.

(** A part that cannot throw. *)
Definition run_on {S} (e : outcome S) (left : nat) : eff (S * nat) unit :=
  match e with Done s => Val tt (s, left) | Fault f => Bad f end.

(** m_blocks.resize(n, fill): memory is needed only to grow. *)
Definition a_resize (b : bitset) (n : nat) (fill : N) (left : nat) : eff (bitset * nat) unit :=
  if n <=? length (blocks b) then Val tt (mkB (vresize (blocks b) n fill) (bitCount b), left)
  else match left with
       | O => Thrown (b, 0)
       | S k => Val tt (mkB (vresize (blocks b) n fill) (bitCount b), k)
       end.

(** m_blocks.push_back(x) *)
Definition a_push (b : bitset) (x : N) (left : nat) : eff (bitset * nat) unit :=
  match left with
  | O => Thrown (b, 0)
  | S k => Val tt (mkB (blocks b ++ [x]) (bitCount b), k)
  end.

(** Resize, Bitset.inl 544-559 *)
Definition aResize (b : bitset) (n : nat) (defaultVal : bool) (left : nat) : eff (bitset * nat) unit :=
  let remainingBits := GetBitIndex w (bitCount b) in
  let fill := if defaultVal then fullBitMask w else 0%N in
  tbind
    (if (bitCount b <? n) && (0 <? remainingBits) && defaultVal then
       tbind (a_resize b (ComputeBlockCount w n) fill left) (fun _ '(b', k) =>
         run_on (if length (blocks b) =? 0 then Fault FUB
                 else let last := length (blocks b) - 1 in
                      m <- shl w (fullBitMask w) remainingBits ;;
                      x <- vget (blocks b') last ;;
                      l <- vset (blocks b') last (N.lor x m) ;;
                      Done (mkB l (bitCount b'))) k)
     else a_resize b (ComputeBlockCount w n) fill left)
    (fun _ '(b', k) => run_on (ResetExtraBits w (mkB (blocks b') n)) k).

(** UnboundedSet, Bitset.inl 912-922 *)
Definition aUnboundedSet (b : bitset) (bit : nat) (val : bool) (left : nat) : eff (bitset * nat) unit :=
  if bit <? bitCount b then run_on (Set_ w b bit val) left
  else if val then tbind (aResize b (bit + 1) false left) (fun _ '(b', k) => run_on (Set_ w b' bit true) k)
  else Val tt (b, left).

(** The loop over the complete blocks of AppendBits, Bitset.inl 173-183: [m] blocks to push. *)
Fixpoint a_pushes (tw m : nat) (b : bitset) (bits : N) (n left : nat) : eff (bitset * nat) (N * nat) :=
  match m with
  | O => Val (bits, n) (b, left)
  | S m => tbind (a_push b (trunc w bits) left) (fun _ '(b', k) =>
             a_pushes tw m b' (if w <? tw then N.shiftr bits (N.of_nat w) else 0%N) (n - w) k)
  end.

(** AppendBits, Bitset.inl 156-191: the size is changed first (line 159), then the last block, then the blocks are pushed. *)
Definition aAppendBits (tw : nat) (b0 : bitset) (bits0 : N) (n0 left : nat) : eff (bitset * nat) unit :=
  let bitShift := bitCount b0 mod w in
  let b := mkB (blocks b0) (bitCount b0 + n0) in
  match (if negb (bitShift =? 0) then
           let remainingBits := w - bitShift in
           x <- vget (blocks b) (length (blocks b) - 1) ;;
           s <- shl w (trunc w bits0) bitShift ;;
           l <- vset (blocks b) (length (blocks b) - 1) (N.lor x s) ;;
           Done (mkB l (bitCount b), (if remainingBits <? tw then N.shiftr bits0 (N.of_nat remainingBits) else 0%N),
                 n0 - Nat.min remainingBits n0)
         else Done (b, bits0, n0)) with
  | Fault f => Bad f
  | Done (b, bits, n) =>
    if 0 <? n then
      tbind (a_pushes tw (ComputeBlockCount w n - 1) b bits n left) (fun '(bits, n) '(b, k) =>
        match shlp w 1 n with
        | Fault f => Bad f
        | Done one => a_push b (trunc w (N.land bits (one - 1))) k
        end)
    else Val tt (b, left)
  end.

(** The loop over the bytes of Write, Bitset.inl 388-393. *)
Fixpoint a_bytes (mem : list N) (ps : list nat) (b : bitset) (n left : nat) : eff (bitset * nat) unit :=
  match ps with
  | [] => Val tt (b, left)
  | p :: ps =>
    match vget mem p with
    | Fault f => Bad f
    | Done byte => tbind (aAppendBits 8 b byte (Nat.min n 8) left) (fun _ '(b', k) => a_bytes mem ps b' (n - Nat.min n 8) k)
    end
  end.

(** Write(PointerSequence, bitCount), Bitset.inl 366-397 *)
Definition aWrite (mem : list N) (b : bitset) (seq : nat * nat) (n0 left : nat) : eff (bitset * nat) (nat * nat) :=
  let '(ptr, second) := seq in
  tassert (second <? 8)
   (let total := second + n0 in
    let endPtr := ptr + (if total =? 0 then 0 else (total - 1) / 8) in
    let nextPtr := endPtr + (if total mod 8 =? 0 then 1 else 0) in
    tbind
      (if negb (second =? 0) then
         let mask := N.shiftl (N.ones (N.of_nat (8 - second))) (N.of_nat second) in
         let readCount := Nat.min n0 (8 - second) in
         match (byte <- vget mem ptr ;; shr w (trunc w (N.land byte mask)) second) with
         | Fault f => Bad f
         | Done v => tbind (aAppendBits (pw w) b v readCount left) (fun _ s => Val (ptr + 1, n0 - readCount) s)
         end
       else Val (ptr, n0) (b, left))
      (fun '(p, n) '(b, k) =>
         tbind (a_bytes mem (range p (endPtr + 1)) b n k) (fun _ s => Val (nextPtr, total mod 8) s))).

Notation store := (nat -> bitset).

(** m_blocks.resize of the destination in a store of bitsets. *)
Definition a_sresize (st : store) (d n left : nat) : eff (store * nat) unit :=
  match a_resize (st d) n 0%N left with
  | Val u (b, k) => Val u (sput st d b, k)
  | Thrown (b, k) => Thrown (sput st d b, k)
  | Bad f => Bad f
  end.

(** PerformsAND, Bitset.inl 408-424 *)
Definition aPerformsAND (st : store) (d a b left : nat) : eff (store * nat) unit :=
  let minc := Nat.min (GetBlockCount (st a)) (GetBlockCount (st b)) in
  let maxc := Nat.max (GetBlockCount (st a)) (GetBlockCount (st b)) in
  tbind (a_sresize st d maxc left) (fun _ '(st, k) =>
    run_on (let st := sput st d (mkB (blocks (st d)) (Nat.max (GetSize (st a)) (GetSize (st b)))) in
            st <- foreach (range 0 minc) (fun st i =>
                    x <- GetBlock (st a) i ;; y <- GetBlock (st b) i ;; sput_block st d i (N.land x y)) st ;;
            st <- foreach (range minc maxc) (fun st i => sput_block st d i 0%N) st ;;
            s_ResetExtraBits w st d) k).

(** PerformsNOT, Bitset.inl 432-441 *)
Definition aPerformsNOT (st : store) (d a left : nat) : eff (store * nat) unit :=
  tbind (a_sresize st d (GetBlockCount (st a)) left) (fun _ '(st, k) =>
    run_on (let st := sput st d (mkB (blocks (st d)) (GetSize (st a))) in
            st <- foreach (range 0 (length (blocks (st d)))) (fun st i =>
                    x <- GetBlock (st a) i ;; sput_block st d i (bnot w x)) st ;;
            s_ResetExtraBits w st d) k).

(** PerformsOR, Bitset.inl 452-469 and PerformsXOR, 480-497 *)
Definition aPerformsOp (op : N -> N -> N) (st : store) (d a b left : nat) : eff (store * nat) unit :=
  let greater := if GetSize (st b) <? GetSize (st a) then a else b in
  let lesser := if GetSize (st b) <? GetSize (st a) then b else a in
  let maxc := GetBlockCount (st greater) in
  let minc := GetBlockCount (st lesser) in
  tbind (a_sresize st d maxc left) (fun _ '(st, k) =>
    run_on (let st := sput st d (mkB (blocks (st d)) (GetSize (st greater))) in
            st <- foreach (range 0 minc) (fun st i =>
                    x <- GetBlock (st a) i ;; y <- GetBlock (st b) i ;; sput_block st d i (op x y)) st ;;
            st <- foreach (range minc maxc) (fun st i =>
                    x <- GetBlock (st greater) i ;; sput_block st d i x) st ;;
            s_ResetExtraBits w st d) k).
Definition aPerformsOR := aPerformsOp N.lor.
Definition aPerformsXOR := aPerformsOp N.lxor.

End Model.
