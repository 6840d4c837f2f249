(** Model of MemoryPool.hpp / .inl, over the Bitset model (Block = UInt64, w = 64).
    A block of the pool has an address and cells. The address operator new gives to a new block is an argument of the operation that may need it.
    Simplifications: no arithmetic overflow of indices and addresses (memory could not hold such a pool); T's members do not throw; allocation never fails. *)
From Verif Require Export Base CellModel BitsetModel PoolSpec.
Open Scope nat_scope.

Section Pool.
Context {A : Type}.
Variables size stride : N.   (* sizeof(T), sizeof(AlignedStorage) *)

(** MemoryPool.hpp 84-92 *)
Record pblock := PB { base : N; occupiedEntryCount : nat; memory : list (cell A); freeEntries : bitset; occupiedEntries : bitset }.
(** MemoryPool.hpp 94-95 *)
Record pool := MP { m_blockSize : nat; m_blocks : list pblock }.

(** &block.memory[localIndex] *)
Definition address (b : pblock) (local : nat) : N := (base b + N.of_nat local * stride)%N.

(** AllocateBlock 354-360 *)
Definition AllocateBlock (p : pool) (at_ : N) : outcome pool :=
  f <- Resize 64 empty (m_blockSize p) true ;;
  o <- Resize 64 empty (m_blockSize p) false ;;
  Done (MP (m_blockSize p) (m_blocks p ++ [PB at_ 0 (repeat Raw (m_blockSize p)) f o])).

(** MemoryPool(blockSize) 24-30 *)
Definition pool_new (blockSize : nat) (at_ : N) : outcome pool := AllocateBlock (MP blockSize []) at_.

(** The search of Allocate, 50-61; [i] is blockIndex. *)
Fixpoint find_room (blockSize : nat) (l : list pblock) (i : nat) : outcome (option (nat * nat)) :=
  match l with
  | [] => Done None
  | b :: r =>
    if occupiedEntryCount b =? blockSize then find_room blockSize r (i + 1)
    else match FindFirst 64 (freeEntries b) with Some p => Done (Some (i, p)) | None => Fault FAssert end
  end.

(** Allocate(DeferConstruct, index) 47-83: the pool, the index, the address. *)
Definition Allocate_defer (p : pool) (at_ : N) : outcome (pool * nat * N) :=
  found <- find_room (m_blockSize p) (m_blocks p) 0 ;;
  ' (p, blockIndex, localIndex) <-
    match found with
    | Some (i, j) => Done (p, i, j)
    | None => let blockIndex := length (m_blocks p) in p <- AllocateBlock p at_ ;; Done (p, blockIndex, 0)
    end ;;
  b <- vget (m_blocks p) blockIndex ;;
  f <- ResetBit 64 (freeEntries b) localIndex ;;
  o <- Set_ 64 (occupiedEntries b) localIndex true ;;
  l <- vset (m_blocks p) blockIndex (PB (base b) (occupiedEntryCount b + 1) (memory b) f o) ;;
  Done (MP (m_blockSize p) l, blockIndex * m_blockSize p + localIndex, address b localIndex).

(** Apply an action to the memory of an entry. *)
Definition on_cell (p : pool) (index : nat) (f : list (cell A) -> nat -> outcome (list (cell A))) : outcome pool :=
  let blockIndex := index / m_blockSize p in
  let localIndex := index mod m_blockSize p in
  b <- vget (m_blocks p) blockIndex ;;
  m <- f (memory b) localIndex ;;
  l <- vset (m_blocks p) blockIndex (PB (base b) (occupiedEntryCount b) m (freeEntries b) (occupiedEntries b)) ;;
  Done (MP (m_blockSize p) l).

(** The user's PlacementNew on a deferred entry, PlacementDestroy before Free(NoDestruction) (MemoryHelper.inl 25-42). *)
Definition user_construct (p : pool) (index : nat) (a : A) : outcome pool := on_cell p index (fun m i => construct m i (Some a)).
Definition user_destroy (p : pool) (index : nat) : outcome pool := on_cell p index destroy.

(** Allocate(index, args...) 93-100 *)
Definition Allocate (p : pool) (a : A) (at_ : N) : outcome (pool * nat * N) :=
  ' (p, index, entry) <- Allocate_defer p at_ ;;
  p <- user_construct p index a ;;
  Done (p, index, entry).

(** GetAllocatedPointer 363-380 *)
Definition GetAllocatedPointer (p : pool) (blockIndex localIndex : nat) : outcome N :=
  assert (blockIndex <? length (m_blocks p)) ;;;
  b <- vget (m_blocks p) blockIndex ;;
  t <- Test 64 (occupiedEntries b) localIndex ;;
  assert t ;;;
  Done (address b localIndex).

(** Dividing by a zero block size is undefined. *)
Definition split_index (p : pool) (index : nat) : outcome (nat * nat) :=
  require (negb (m_blockSize p =? 0)) ;;; Done (index / m_blockSize p, index mod m_blockSize p).

(** RetrieveFromIndex 249-273 *)
Definition RetrieveFromIndex (p : pool) (index : nat) : outcome N :=
  ' (blockIndex, localIndex) <- split_index p index ;; GetAllocatedPointer p blockIndex localIndex.

(** The bookkeeping shared by both Free: 134-139, 157-162. m_blocks[blockIndex] is not checked by the second. *)
Definition release (p : pool) (blockIndex localIndex : nat) : outcome pool :=
  b <- vget (m_blocks p) blockIndex ;;
  assert (0 <? occupiedEntryCount b) ;;;
  f <- Set_ 64 (freeEntries b) localIndex true ;;
  o <- ResetBit 64 (occupiedEntries b) localIndex ;;
  l <- vset (m_blocks p) blockIndex (PB (base b) (occupiedEntryCount b - 1) (memory b) f o) ;;
  Done (MP (m_blockSize p) l).

(** Free(index) 126-140 *)
Definition Free (p : pool) (index : nat) : outcome pool :=
  ' (blockIndex, localIndex) <- split_index p index ;;
  _ <- GetAllocatedPointer p blockIndex localIndex ;;
  p <- on_cell p index destroy ;;
  release p blockIndex localIndex.

(** Free(index, NoDestruction) 152-163 *)
Definition Free_nodestruction (p : pool) (index : nat) : outcome pool :=
  ' (blockIndex, localIndex) <- split_index p index ;; release p blockIndex localIndex.

(** Reset 219-237. Bitset has Reset() and Reset(std::size_t bit): Reset(true) resets bit 1 and Reset(false) bit 0. The positions of the inner loop
    (FindFirst, then FindNext until npos) are those of IterBits. *)
Definition reset_block (b : pblock) : outcome pblock :=
  if occupiedEntryCount b =? 0 then Done b
  else
    positions <- IterBits 64 (occupiedEntries b) ;;
    m <- foreach positions destroy (memory b) ;;
    f <- ResetBit 64 (freeEntries b) 1 ;;
    o <- ResetBit 64 (occupiedEntries b) 0 ;;
    Done (PB (base b) 0 m f o).
Fixpoint reset_blocks (l : list pblock) : outcome (list pblock) :=
  match l with
  | [] => Done []
  | b :: r => b <- reset_block b ;; r <- reset_blocks r ;; Done (b :: r)
  end.
Definition Reset (p : pool) : outcome pool := l <- reset_blocks (m_blocks p) ;; Done (MP (m_blockSize p) l).

(** Clear 109-114: the pool and the blocks whose memory is released. *)
Definition Clear (p : pool) : outcome (pool * list pblock) := p <- Reset p ;; Done (MP (m_blockSize p) [], m_blocks p).
(** ~MemoryPool 36-39: the blocks whose memory is released. *)
Definition pool_destroy (p : pool) : outcome (list pblock) := p <- Reset p ;; Done (m_blocks p).
(** Move construction and assignment = default (hpp 40, 78). New pool, source. Assignment also drops the blocks of the target without Reset. *)
Definition pool_move (p : pool) : pool * pool := (p, MP (m_blockSize p) []).
Definition pool_move_assign (dst src : pool) : pool * pool * list pblock := (src, MP (m_blockSize src) [], m_blocks dst).

(** 170-207, size 348-351 *)
Definition GetAllocatedEntryCount (p : pool) : nat := fold_left (fun c b => c + occupiedEntryCount b) (m_blocks p) 0.
Definition GetBlockCount (p : pool) : nat := length (m_blocks p).
Definition GetFreeEntryCount (p : pool) : nat := GetBlockCount p * m_blockSize p - GetAllocatedEntryCount p.

(** RetrieveEntryIndex 283-307; None is InvalidIndex. The difference of two T pointers that are not a multiple of sizeof(T) apart is undefined. *)
Fixpoint find_owner (blockSize : nat) (data : N) (l : list pblock) (i : nat) : outcome (option nat) :=
  match l with
  | [] => Done None
  | b :: r =>
    if ((base b <=? data) && (data <? base b + N.of_nat blockSize * size))%N then
      require ((data - base b) mod size =? 0)%N ;;;
      let localIndex := N.to_nat ((data - base b) / size) in
      assert (data =? address b localIndex)%N ;;;
      Done (Some (i * blockSize + localIndex))
    else find_owner blockSize data r (i + 1)
  end.
Definition RetrieveEntryIndex (p : pool) (data : N) : outcome (option nat) := find_owner (m_blockSize p) data (m_blocks p) 0.

(** GetFirstAllocatedEntryFromBlock 389-408; None is { InvalidIndex, InvalidIndex }. *)
Fixpoint first_allocated (l : list pblock) (i : nat) : outcome (option (nat * nat)) :=
  match l with
  | [] => Done None
  | b :: r =>
    if occupiedEntryCount b =? 0 then first_allocated r (i + 1)
    else match FindFirst 64 (occupiedEntries b) with Some p => Done (Some (i, p)) | None => Fault FAssert end
  end.
Definition GetFirstAllocatedEntryFromBlock (p : pool) (blockIndex : nat) := first_allocated (skipn blockIndex (m_blocks p)) blockIndex.
(** GetNextAllocatedEntry 411-421 *)
Definition GetNextAllocatedEntry (p : pool) (blockIndex localIndex : nat) : outcome (option (nat * nat)) :=
  assert (blockIndex <? length (m_blocks p)) ;;;
  b <- vget (m_blocks p) blockIndex ;;
  next <- FindNext 64 (occupiedEntries b) localIndex ;;
  match next with
  | Some n => Done (Some (blockIndex, n))
  | None => GetFirstAllocatedEntryFromBlock p (blockIndex + 1)
  end.

(** [for (T& entry : pool)] with GetIndex (433-438), operator++ (449-456), operator* (471-475): the indices and addresses visited. *)
Fixpoint pool_loop (fuel : nat) (p : pool) (it : option (nat * nat)) : outcome (list (nat * N)) :=
  match it with
  | None => Done []
  | Some (i, j) =>
    match fuel with
    | O => Fault FDiverge
    | S fuel =>
      a <- GetAllocatedPointer p i j ;;
      next <- GetNextAllocatedEntry p i j ;;
      r <- pool_loop fuel p next ;;
      Done ((i * m_blockSize p + j, a) :: r)
    end
  end.
Definition pool_iterate (p : pool) : outcome (list (nat * N)) :=
  it <- GetFirstAllocatedEntryFromBlock p 0 ;; pool_loop (length (m_blocks p) * m_blockSize p) p it.
End Pool.

(** One operation, a history. *)
(** The pool and, for an allocation, the index and address. *)
Definition pool_apply {A} (stride : N) (p : @pool A) (o : pop A) : outcome (@pool A * option (nat * N)) :=
  match o with
  | PAlloc a at_ => ' (p, i, e) <- Allocate stride p a at_ ;; Done (p, Some (i, e))
  | PDefer at_ => ' (p, i, e) <- Allocate_defer stride p at_ ;; Done (p, Some (i, e))
  | PConstruct i a => p <- user_construct p i a ;; Done (p, None)
  | PDestroy i => p <- user_destroy p i ;; Done (p, None)
  | PFree i => p <- Free stride p i ;; Done (p, None)
  | PFreeNoDestruction i => p <- Free_nodestruction p i ;; Done (p, None)
  | PClear => ' (p, _) <- Clear p ;; Done (p, None)
  end.
Fixpoint pool_run {A} (stride : N) (p : @pool A) (ops : list (pop A)) : outcome (@pool A * list (option (nat * N))) :=
  match ops with
  | [] => Done (p, [])
  | o :: ops => ' (p, r) <- pool_apply stride p o ;; ' (p, rs) <- pool_run stride p ops ;; Done (p, r :: rs)
  end.
