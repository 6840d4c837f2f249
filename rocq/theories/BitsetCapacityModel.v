(** Model of where a Bitset keeps its blocks ([Container] = std::vector): the capacity of the container, which storage it uses, and the
    number of allocations made so far.  GetCapacity and Reserve are Bitset.inl 311-315 and 531-535; the members that change the number of
    blocks are those of BitsetModel.v with the calls they make on m_blocks, the others work in place and are taken from BitsetModel.v.
    std::vector allocates when it is asked for more blocks than its capacity; how much more it takes is left open ([grow]).
    Simplifications: copy assignment of std::vector reuses the storage when it is large enough (what the implementations do, the standard leaves
    it open); no allocation fails (see BitsetThrowModel.v). *)
From Verif Require Import Base CInt MathModel BitsetModel BitsetHistory.
Open Scope nat_scope.

(** The storage of a container: its capacity in blocks and the number of the allocation it comes from (0: none). *)
Record storage := St { room : nat; home : nat }.
Definition no_storage : storage := St 0 0.

Section Model.
(** The capacity taken by the k-th allocation, made for [n] blocks; bits per block. *)
Variables (grow : nat -> nat -> nat) (w : nat).

(** A bitset, its storage, the number of the next allocation. *)
Definition one : Type := bitset * storage * nat.

Definition ensure (s : storage) (next n : nat) : storage * nat :=
  if n <=? room s then (s, next) else (St (grow next n) next, S next).

(** m_blocks.resize(n, fill), m_blocks.push_back(x), m_blocks.reserve(n) *)
Definition c_resize (m : one) (n : nat) (fill : N) : one :=
  let '(b, s, next) := m in (mkB (vresize (blocks b) n fill) (bitCount b), fst (ensure s next n), snd (ensure s next n)).
Definition c_push (m : one) (x : N) : one :=
  let '(b, s, next) := m in
  let n := length (blocks b) + 1 in (mkB (blocks b ++ [x]) (bitCount b), fst (ensure s next n), snd (ensure s next n)).
Definition c_reserve (m : one) (n : nat) : one :=
  let '(b, s, next) := m in (b, fst (ensure s next n), snd (ensure s next n)).

(** A part that does not change the number of blocks. *)
Definition in_place (m : one) (f : bitset -> outcome bitset) : outcome one :=
  let '(b, s, next) := m in b' <- f b ;; Done (b', s, next).

(** 311-315 and 531-535 *)
Definition GetCapacity (s : storage) : nat := room s * w.
Definition cReserve (m : one) (n : nat) : one := c_reserve m (ComputeBlockCount w n).

(** Resize, 544-559 *)
Definition cResize (m : one) (n : nat) (defaultVal : bool) : outcome one :=
  let b := fst (fst m) in
  let remainingBits := GetBitIndex w (bitCount b) in
  let fill := if defaultVal then fullBitMask w else 0%N in
  m <- (if (bitCount b <? n) && (0 <? remainingBits) && defaultVal then
          if length (blocks b) =? 0 then Fault FUB else
          let last := length (blocks b) - 1 in
          in_place (c_resize m (ComputeBlockCount w n) fill) (fun b' =>
            k <- shl w (fullBitMask w) remainingBits ;;
            x <- vget (blocks b') last ;;
            l <- vset (blocks b') last (N.lor x k) ;;
            Done (mkB l (bitCount b')))
        else Done (c_resize m (ComputeBlockCount w n) fill)) ;;
  in_place m (fun b' => ResetExtraBits w (mkB (blocks b') n)).

(** UnboundedSet, 912-922 *)
Definition cUnboundedSet (m : one) (bit : nat) (val : bool) : outcome one :=
  if bit <? bitCount (fst (fst m)) then in_place m (fun b => Set_ w b bit val)
  else if val then m <- cResize m (bit + 1) false ;; in_place m (fun b => Set_ w b bit true)
  else Done m.

(** The loop over the complete blocks of AppendBits, 173-183: [k] blocks to push. *)
Fixpoint c_pushes (tw k : nat) (m : one) (bits : N) (n : nat) : one * N * nat :=
  match k with
  | O => (m, bits, n)
  | S k => c_pushes tw k (c_push m (trunc w bits)) (if w <? tw then N.shiftr bits (N.of_nat w) else 0%N) (n - w)
  end.

(** AppendBits, 156-191 *)
Definition cAppendBits (tw : nat) (m : one) (bits0 : N) (n0 : nat) : outcome one :=
  let '(b0, s, next) := m in
  let bitShift := bitCount b0 mod w in
  let b := mkB (blocks b0) (bitCount b0 + n0) in
  '(b, bits, n) <-
    (if negb (bitShift =? 0) then
       let remainingBits := w - bitShift in
       x <- vget (blocks b) (length (blocks b) - 1) ;;
       y <- shl w (trunc w bits0) bitShift ;;
       l <- vset (blocks b) (length (blocks b) - 1) (N.lor x y) ;;
       Done (mkB l (bitCount b), (if remainingBits <? tw then N.shiftr bits0 (N.of_nat remainingBits) else 0%N),
             n0 - Nat.min remainingBits n0)
     else Done (b, bits0, n0)) ;;
  if 0 <? n then
    let '(m, bits, n) := c_pushes tw (ComputeBlockCount w n - 1) (b, s, next) bits n in
    one <- shlp w 1 n ;;
    Done (c_push m (trunc w (N.land bits (one - 1))))
  else Done (b, s, next).

(** Write(PointerSequence, bitCount), 366-397: see [Write]; the position it returns is left out. *)
Definition cWrite (mem : list N) (m : one) (seq : nat * nat) (n0 : nat) : outcome one :=
  let '(ptr, second) := seq in
  assert (second <? 8) ;;;
  let total := second + n0 in
  let endPtr := ptr + (if total =? 0 then 0 else (total - 1) / 8) in
  '(m, p, n) <-
    (if negb (second =? 0) then
       let mask := N.shiftl (N.ones (N.of_nat (8 - second))) (N.of_nat second) in
       let readCount := Nat.min n0 (8 - second) in
       byte <- vget mem ptr ;;
       v <- shr w (trunc w (N.land byte mask)) second ;;
       m <- cAppendBits (pw w) m v readCount ;;
       Done (m, ptr + 1, n0 - readCount)
     else Done (m, ptr, n0)) ;;
  '(m, _) <-
    foreach (range p (endPtr + 1)) (fun '(m, n) p =>
      byte <- vget mem p ;;
      m <- cAppendBits 8 m byte (Nat.min n 8) ;;
      Done (m, n - Nat.min n 8)) (m, n) ;;
  Done m.

(** The constructors Bitset(n, v), Bitset(string), Bitset(value): 39-44, 67-90, 120-138 *)
Definition fresh (next : nat) : one := (empty, no_storage, next).
Definition c_make (next n : nat) (v : bool) : outcome one := cResize (fresh next) n v.
Definition c_of_string (next : nat) (t : list N) : outcome one :=
  let n := length t in
  in_place (c_resize (fresh next) (ComputeBlockCount w n) 0%N) (fun b =>
    foreach (range 0 n) (fun b i =>
      c <- vget t i ;;
      if (c =? 49)%N then Set_ w b (bitCount b - i - 1) true
      else if (c =? 48)%N then Done b
      else Fault FAssert) (mkB (blocks b) n)).
Definition c_of_int (next tw : nat) (value : Z) : outcome one :=
  if tw <=? w then
    let '(_, s, next) := fresh next in Done (c_push (mkB [] tw, s, next) (Z.to_N (cast (block_ty w) value)))
  else foreach (range 0 tw) (fun m bitPos =>
         if Z.testbit value (Z.of_nat bitPos) then cUnboundedSet m bitPos true else Done m) (fresh next).

(** Several bitsets. *)
Record cstate := CS { bs : nat -> bitset; stores : nat -> storage; next : nat }.
Definition tput {A} (f : nat -> A) (r : nat) (x : A) : nat -> A := fun q => if q =? r then x else f q.
Definition whole (st : cstate) (r : nat) : one := (bs st r, stores st r, next st).
Definition back (st : cstate) (r : nat) (m : one) : cstate :=
  let '(b, s, k) := m in CS (sput (bs st) r b) (tput (stores st) r s) k.
Definition at_one (st : cstate) (r : nat) (m : outcome one) : outcome cstate := m <- m ;; Done (back st r m).

(** A logical operator: m_blocks.resize(n) in [d], then writes in place. *)
Definition c_logic (st : cstate) (d n : nat) (f : (nat -> bitset) -> outcome (nat -> bitset)) : outcome cstate :=
  let st := back st d (c_resize (whole st d) n 0%N) in
  l <- f (bs st) ;; Done (CS l (stores st) (next st)).

(** PerformsAND, 408-424 *)
Definition cPerformsAND (st : cstate) (d a b : nat) : outcome cstate :=
  let minc := Nat.min (GetBlockCount (bs st a)) (GetBlockCount (bs st b)) in
  let maxc := Nat.max (GetBlockCount (bs st a)) (GetBlockCount (bs st b)) in
  c_logic st d maxc (fun st =>
    let st := sput st d (mkB (blocks (st d)) (Nat.max (GetSize (st a)) (GetSize (st b)))) in
    st <- foreach (range 0 minc) (fun st i =>
            x <- GetBlock (st a) i ;; y <- GetBlock (st b) i ;; sput_block st d i (N.land x y)) st ;;
    st <- foreach (range minc maxc) (fun st i => sput_block st d i 0%N) st ;;
    s_ResetExtraBits w st d).

(** PerformsNOT, 432-441 *)
Definition cPerformsNOT (st : cstate) (d a : nat) : outcome cstate :=
  c_logic st d (GetBlockCount (bs st a)) (fun st =>
    let st := sput st d (mkB (blocks (st d)) (GetSize (st a))) in
    st <- foreach (range 0 (length (blocks (st d)))) (fun st i =>
            x <- GetBlock (st a) i ;; sput_block st d i (bnot w x)) st ;;
    s_ResetExtraBits w st d).

(** PerformsOR, 452-469 and PerformsXOR, 480-497 *)
Definition cPerformsOp (op : N -> N -> N) (st : cstate) (d a b : nat) : outcome cstate :=
  let greater := if GetSize (bs st b) <? GetSize (bs st a) then a else b in
  let lesser := if GetSize (bs st b) <? GetSize (bs st a) then b else a in
  let maxc := GetBlockCount (bs st greater) in
  let minc := GetBlockCount (bs st lesser) in
  c_logic st d maxc (fun st =>
    let st := sput st d (mkB (blocks (st d)) (GetSize (st greater))) in
    st <- foreach (range 0 minc) (fun st i =>
            x <- GetBlock (st a) i ;; y <- GetBlock (st b) i ;; sput_block st d i (op x y)) st ;;
    st <- foreach (range minc maxc) (fun st i =>
            x <- GetBlock (st greater) i ;; sput_block st d i x) st ;;
    s_ResetExtraBits w st d).

(** Defaulted copy assignment. *)
Definition c_copy (st : cstate) (d s : nat) : cstate :=
  if d =? s then CS (sput (bs st) d (bs st s)) (stores st) (next st)
  else let e := ensure (stores st d) (next st) (length (blocks (bs st s))) in
       CS (sput (bs st) d (bs st s)) (tput (stores st) d (fst e)) (snd e).
(** Swap, 774-779: std::swap of the containers exchanges their storages. *)
Definition c_swap (st : cstate) (a b : nat) : cstate :=
  CS (Swap (bs st) a b) (tput (tput (stores st) a (stores st b)) b (stores st a)) (next st).

(** The calls of BitsetHistory.v, and Reserve. *)
Inductive cop := Call (o : op) | CReserve (r n : nat).

(** A call that leaves the container alone: what BitsetHistory.v says. *)
Definition c_in_place (st : cstate) (o : op) : outcome cstate := l <- step w (bs st) o ;; Done (CS l (stores st) (next st)).

Definition cstep (st : cstate) (c : cop) : outcome cstate :=
  match c with
  | CReserve r n => Done (back st r (cReserve (whole st r) n))
  | Call o =>
    match o with
    | OMake r n v => at_one st r (c_make (next st) n v)
    | OString r t => at_one st r (c_of_string (next st) t)
    | OInt r tw v => at_one st r (c_of_int (next st) tw (Z.of_N v))
    | OResize r n v => at_one st r (cResize (whole st r) n v)
    | OUSet r i v => at_one st r (cUnboundedSet (whole st r) i v)
    | OUReset r i => at_one st r (cUnboundedSet (whole st r) i false)
    | OAppend r tw v n => at_one st r (cAppendBits tw (whole st r) v n)
    | OWrite r mem ptr offset n => at_one st r (cWrite mem (whole st r) (ptr, offset) n)
    | OAnd d a b => cPerformsAND st d a b
    | OOr d a b => cPerformsOp N.lor st d a b
    | OXor d a b => cPerformsOp N.lxor st d a b
    | ONot d a => cPerformsNOT st d a
    | OCopy d s => Done (c_copy st d s)
    | OSwap a b => Done (c_swap st a b)
    | OClear _ | OSet _ _ _ | OSetAll _ _ | OReset _ _ | OFlip _ | OShl _ _ | OShr _ _ | OReverse _ | OSetBlock _ _ _ | OBit _ _ _ =>
      c_in_place st o
    end
  end.

Fixpoint crun (st : cstate) (l : list cop) : outcome cstate :=
  match l with [] => Done st | c :: r => st <- cstep st c ;; crun st r end.

Definition start : cstate := CS (fun _ => empty) (fun _ => no_storage) 1.

End Model.
