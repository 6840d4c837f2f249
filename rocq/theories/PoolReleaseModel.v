(** MemoryPool (MemoryPool.inl) compiled without assertions (assert of <cassert> with NDEBUG): the members of PoolModel that contain assertions, or use Bitset
    members that do, again. Members that are the same in both modes are those of PoolModel.
    FindFirst returning npos is followed by an access to bit or entry npos, which is undefined. Freeing in a block whose counter is 0 wraps the counter: an
    error outcome here, followed in PoolWrapModel. *)
From Verif Require Export Base CellModel BitsetModel BitsetReleaseModel PoolModel.
Open Scope nat_scope.

Section Pool.
Context {A : Type}.
Variables size stride : N.   (* sizeof(T), sizeof(AlignedStorage) *)
Notation pool := (@pool A).
Notation pblock := (@pblock A).

(** The search of Allocate, 50-61; [i] is blockIndex. *)
Fixpoint rfind_room (blockSize : nat) (l : list pblock) (i : nat) : outcome (option (nat * nat)) :=
  match l with
  | [] => Done None
  | b :: r =>
    if occupiedEntryCount b =? blockSize then rfind_room blockSize r (i + 1)
    else match FindFirst 64 (freeEntries b) with Some p => Done (Some (i, p)) | None => Fault FUB end
  end.

(** Allocate(DeferConstruct, index) 47-83: the pool, the index, the address. *)
Definition rAllocate_defer (p : pool) (at_ : N) : outcome (pool * nat * N) :=
  found <- rfind_room (m_blockSize p) (m_blocks p) 0 ;;
  ' (p, blockIndex, localIndex) <-
    match found with
    | Some (i, j) => Done (p, i, j)
    | None => let blockIndex := length (m_blocks p) in p <- AllocateBlock p at_ ;; Done (p, blockIndex, 0)
    end ;;
  b <- vget (m_blocks p) blockIndex ;;
  f <- rResetBit 64 (freeEntries b) localIndex ;;
  o <- rSet 64 (occupiedEntries b) localIndex true ;;
  l <- vset (m_blocks p) blockIndex (PB (base b) (occupiedEntryCount b + 1) (memory b) f o) ;;
  Done (MP (m_blockSize p) l, blockIndex * m_blockSize p + localIndex, address stride b localIndex).

(** Allocate(index, args...) 93-100 *)
Definition rAllocate (p : pool) (a : A) (at_ : N) : outcome (pool * nat * N) :=
  ' (p, index, entry) <- rAllocate_defer p at_ ;;
  p <- user_construct p index a ;;
  Done (p, index, entry).

(** GetAllocatedPointer 363-380 *)
Definition rGetAllocatedPointer (p : pool) (blockIndex localIndex : nat) : outcome N :=
  b <- vget (m_blocks p) blockIndex ;;
  Done (address stride b localIndex).

(** RetrieveFromIndex 249-273 *)
Definition rRetrieveFromIndex (p : pool) (index : nat) : outcome N :=
  ' (blockIndex, localIndex) <- split_index p index ;; rGetAllocatedPointer p blockIndex localIndex.

(** The bookkeeping shared by both Free: 134-139, 157-162. m_blocks[blockIndex] is not checked by the second. *)
Definition rrelease (p : pool) (blockIndex localIndex : nat) : outcome pool :=
  b <- vget (m_blocks p) blockIndex ;;
  require (0 <? occupiedEntryCount b) ;;;
  f <- rSet 64 (freeEntries b) localIndex true ;;
  o <- rResetBit 64 (occupiedEntries b) localIndex ;;
  l <- vset (m_blocks p) blockIndex (PB (base b) (occupiedEntryCount b - 1) (memory b) f o) ;;
  Done (MP (m_blockSize p) l).

(** Free(index) 126-140 *)
Definition rFree (p : pool) (index : nat) : outcome pool :=
  ' (blockIndex, localIndex) <- split_index p index ;;
  _ <- rGetAllocatedPointer p blockIndex localIndex ;;
  p <- on_cell p index destroy ;;
  rrelease p blockIndex localIndex.

(** Free(index, NoDestruction) 152-163 *)
Definition rFree_nodestruction (p : pool) (index : nat) : outcome pool :=
  ' (blockIndex, localIndex) <- split_index p index ;; rrelease p blockIndex localIndex.

(** Reset 219-237. Bitset has Reset() and Reset(std::size_t bit): Reset(true) resets bit 1 and Reset(false) bit 0. The positions of the inner loop
    (FindFirst, then FindNext until npos) are those of IterBits. *)
Definition rreset_block (b : pblock) : outcome pblock :=
  if occupiedEntryCount b =? 0 then Done b
  else
    positions <- rIterBits 64 (occupiedEntries b) ;;
    m <- foreach positions destroy (memory b) ;;
    f <- rResetBit 64 (freeEntries b) 1 ;;
    o <- rResetBit 64 (occupiedEntries b) 0 ;;
    Done (PB (base b) 0 m f o).

Fixpoint rreset_blocks (l : list pblock) : outcome (list pblock) :=
  match l with
  | [] => Done []
  | b :: r => b <- rreset_block b ;; r <- rreset_blocks r ;; Done (b :: r)
  end.

Definition rReset (p : pool) : outcome pool := l <- rreset_blocks (m_blocks p) ;; Done (MP (m_blockSize p) l).

(** Clear 109-114: the pool and the blocks whose memory is released. *)
Definition rClear (p : pool) : outcome (pool * list pblock) := p <- rReset p ;; Done (MP (m_blockSize p) [], m_blocks p).

(** ~MemoryPool 36-39: the blocks whose memory is released. *)
Definition rpool_destroy (p : pool) : outcome (list pblock) := p <- rReset p ;; Done (m_blocks p).

(** RetrieveEntryIndex 283-307; None is InvalidIndex. The difference of two T pointers that are not a multiple of sizeof(T) apart is undefined. *)
Fixpoint rfind_owner (blockSize : nat) (data : N) (l : list pblock) (i : nat) : outcome (option nat) :=
  match l with
  | [] => Done None
  | b :: r =>
    if ((base b <=? data) && (data <? base b + N.of_nat blockSize * size))%N then
      require ((data - base b) mod size =? 0)%N ;;;
      let localIndex := N.to_nat ((data - base b) / size) in
      Done (Some (i * blockSize + localIndex))
    else rfind_owner blockSize data r (i + 1)
  end.

Definition rRetrieveEntryIndex (p : pool) (data : N) : outcome (option nat) := rfind_owner (m_blockSize p) data (m_blocks p) 0.

(** GetFirstAllocatedEntryFromBlock 389-408; None is { InvalidIndex, InvalidIndex }. *)
Fixpoint rfirst_allocated (l : list pblock) (i : nat) : outcome (option (nat * nat)) :=
  match l with
  | [] => Done None
  | b :: r =>
    if occupiedEntryCount b =? 0 then rfirst_allocated r (i + 1)
    else match FindFirst 64 (occupiedEntries b) with Some p => Done (Some (i, p)) | None => Fault FUB end
  end.

Definition rGetFirstAllocatedEntryFromBlock (p : pool) (blockIndex : nat) := rfirst_allocated (skipn blockIndex (m_blocks p)) blockIndex.

(** GetNextAllocatedEntry 411-421 *)
Definition rGetNextAllocatedEntry (p : pool) (blockIndex localIndex : nat) : outcome (option (nat * nat)) :=
  b <- vget (m_blocks p) blockIndex ;;
  next <- rFindNext 64 (occupiedEntries b) (Some localIndex) ;;
  match next with
  | Some n => Done (Some (blockIndex, n))
  | None => rGetFirstAllocatedEntryFromBlock p (blockIndex + 1)
  end.

(** [for (T& entry : pool)] with GetIndex (433-438), operator++ (449-456), operator* (471-475): the indices and addresses visited. *)
Fixpoint rpool_loop (fuel : nat) (p : pool) (it : option (nat * nat)) : outcome (list (nat * N)) :=
  match it with
  | None => Done []
  | Some (i, j) =>
    match fuel with
    | O => Fault FDiverge
    | S fuel =>
      a <- rGetAllocatedPointer p i j ;;
      next <- rGetNextAllocatedEntry p i j ;;
      r <- rpool_loop fuel p next ;;
      Done ((i * m_blockSize p + j, a) :: r)
    end
  end.

Definition rpool_iterate (p : pool) : outcome (list (nat * N)) :=
  it <- rGetFirstAllocatedEntryFromBlock p 0 ;; rpool_loop (length (m_blocks p) * m_blockSize p) p it.

End Pool.

(** One operation, a history. *)
(** The pool and, for an allocation, the index and address. *)
Definition rpool_apply {A} (stride : N) (p : @pool A) (o : pop A) : outcome (@pool A * option (nat * N)) :=
  match o with
  | PAlloc a at_ => ' (p, i, e) <- rAllocate stride p a at_ ;; Done (p, Some (i, e))
  | PDefer at_ => ' (p, i, e) <- rAllocate_defer stride p at_ ;; Done (p, Some (i, e))
  | PConstruct i a => p <- user_construct p i a ;; Done (p, None)
  | PDestroy i => p <- user_destroy p i ;; Done (p, None)
  | PFree i => p <- rFree stride p i ;; Done (p, None)
  | PFreeNoDestruction i => p <- rFree_nodestruction p i ;; Done (p, None)
  | PClear => ' (p, _) <- rClear p ;; Done (p, None)
  end.
Fixpoint rpool_run {A} (stride : N) (p : @pool A) (ops : list (pop A)) : outcome (@pool A * list (option (nat * N))) :=
  match ops with
  | [] => Done (p, [])
  | o :: ops => ' (p, r) <- rpool_apply stride p o ;; ' (p, rs) <- rpool_run stride p ops ;; Done (p, r :: rs)
  end.
