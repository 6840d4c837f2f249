(** MemoryPool (MemoryPool.inl) compiled without assertions, with the counters of the blocks as they are: std::size_t, which wraps below zero.
    The members of PoolReleaseModel that read or write a counter, again; a counter is an integer modulo 2^64.
    FindFirst returning npos is followed by an access to bit or entry npos, which is undefined. *)
From Verif Require Export Base CellModel BitsetModel BitsetReleaseModel PoolSpec.
From Coq Require Export ZArith.
Open Scope nat_scope.

Definition size_t (x : Z) : Z := (x mod 2 ^ 64)%Z.

Section Pool.
Context {A : Type}.
Variable stride : N.   (* sizeof(AlignedStorage) *)

(** Block, MemoryPool.hpp 82-88 *)
Record wblock := WB { wbase : N; wcount : Z; wmemory : list (cell A); wfree : bitset; woccupied : bitset }.
Record wpool := WP { w_blockSize : nat; w_blocks : list wblock }.

(** AllocateBlock 354-360 *)
Definition wAllocateBlock (p : wpool) (at_ : N) : outcome wpool :=
  f <- Resize 64 empty (w_blockSize p) true ;;
  o <- Resize 64 empty (w_blockSize p) false ;;
  Done (WP (w_blockSize p) (w_blocks p ++ [WB at_ 0 (repeat Raw (w_blockSize p)) f o])).

(** MemoryPool(blockSize) 24-30 *)
Definition wpool_new (blockSize : nat) (at_ : N) : outcome wpool := wAllocateBlock (WP blockSize []) at_.

(** The search of Allocate, 50-61; [i] is blockIndex. *)
Fixpoint wfind_room (blockSize : nat) (l : list wblock) (i : nat) : outcome (option (nat * nat)) :=
  match l with
  | [] => Done None
  | b :: r =>
    if (wcount b =? Z.of_nat blockSize)%Z then wfind_room blockSize r (i + 1)
    else match FindFirst 64 (wfree b) with Some p => Done (Some (i, p)) | None => Fault FUB end
  end.

(** Allocate(DeferConstruct, index) 47-83: the pool, the index, the address. *)
Definition wAllocate_defer (p : wpool) (at_ : N) : outcome (wpool * nat * N) :=
  found <- wfind_room (w_blockSize p) (w_blocks p) 0 ;;
  ' (p, blockIndex, localIndex) <-
    match found with
    | Some (i, j) => Done (p, i, j)
    | None => let blockIndex := length (w_blocks p) in p <- wAllocateBlock p at_ ;; Done (p, blockIndex, 0)
    end ;;
  b <- vget (w_blocks p) blockIndex ;;
  f <- rResetBit 64 (wfree b) localIndex ;;
  o <- rSet 64 (woccupied b) localIndex true ;;
  l <- vset (w_blocks p) blockIndex (WB (wbase b) (size_t (wcount b + 1)) (wmemory b) f o) ;;
  Done (WP (w_blockSize p) l, blockIndex * w_blockSize p + localIndex, (wbase b + N.of_nat localIndex * stride)%N).

(** Apply an action to the memory of an entry. *)
Definition won_cell (p : wpool) (index : nat) (f : list (cell A) -> nat -> outcome (list (cell A))) : outcome wpool :=
  let blockIndex := index / w_blockSize p in
  let localIndex := index mod w_blockSize p in
  b <- vget (w_blocks p) blockIndex ;;
  m <- f (wmemory b) localIndex ;;
  l <- vset (w_blocks p) blockIndex (WB (wbase b) (wcount b) m (wfree b) (woccupied b)) ;;
  Done (WP (w_blockSize p) l).

(** Allocate(index, args...) 93-100 *)
Definition wAllocate (p : wpool) (a : A) (at_ : N) : outcome (wpool * nat * N) :=
  ' (p, index, entry) <- wAllocate_defer p at_ ;;
  p <- won_cell p index (fun m i => construct m i (Some a)) ;;
  Done (p, index, entry).

(** The bookkeeping shared by both Free: 134-139, 157-162. The division by the block size is part of it. *)
Definition wrelease (p : wpool) (index : nat) : outcome wpool :=
  require (negb (w_blockSize p =? 0)) ;;;
  let blockIndex := index / w_blockSize p in
  let localIndex := index mod w_blockSize p in
  b <- vget (w_blocks p) blockIndex ;;
  f <- rSet 64 (wfree b) localIndex true ;;
  o <- rResetBit 64 (woccupied b) localIndex ;;
  l <- vset (w_blocks p) blockIndex (WB (wbase b) (size_t (wcount b - 1)) (wmemory b) f o) ;;
  Done (WP (w_blockSize p) l).

(** Free(index) 126-140 *)
Definition wFree (p : wpool) (index : nat) : outcome wpool := p <- won_cell p index destroy ;; wrelease p index.

(** Free(index, NoDestruction) 152-163 *)
Definition wFree_nodestruction (p : wpool) (index : nat) : outcome wpool := wrelease p index.

(** Reset 219-237, Reset(true) and Reset(false) of Bitset as in PoolReleaseModel. *)
Definition wreset_block (b : wblock) : outcome wblock :=
  if (wcount b =? 0)%Z then Done b
  else
    positions <- rIterBits 64 (woccupied b) ;;
    m <- foreach positions destroy (wmemory b) ;;
    f <- rResetBit 64 (wfree b) 1 ;;
    o <- rResetBit 64 (woccupied b) 0 ;;
    Done (WB (wbase b) 0 m f o).
Fixpoint wreset_blocks (l : list wblock) : outcome (list wblock) :=
  match l with
  | [] => Done []
  | b :: r => b <- wreset_block b ;; r <- wreset_blocks r ;; Done (b :: r)
  end.

(** Clear 109-114: the pool and the blocks whose memory is released. ~MemoryPool 36-39. *)
Definition wClear (p : wpool) : outcome (wpool * list wblock) := l <- wreset_blocks (w_blocks p) ;; Done (WP (w_blockSize p) [], l).
Definition wpool_destroy (p : wpool) : outcome (list wblock) := wreset_blocks (w_blocks p).

(** GetAllocatedEntryCount 169-177; GetFreeEntryCount 203-208 *)
Definition wGetAllocatedEntryCount (p : wpool) : Z := fold_left (fun c b => size_t (c + wcount b)) (w_blocks p) 0%Z.
Definition wGetFreeEntryCount (p : wpool) : Z := size_t (Z.of_nat (length (w_blocks p) * w_blockSize p) - wGetAllocatedEntryCount p).

(** begin(): GetFirstAllocatedEntryFromBlock 389-408; None is { InvalidIndex, InvalidIndex }. *)
Fixpoint wfirst_allocated (l : list wblock) (i : nat) : outcome (option (nat * nat)) :=
  match l with
  | [] => Done None
  | b :: r =>
    if (wcount b =? 0)%Z then wfirst_allocated r (i + 1)
    else match FindFirst 64 (woccupied b) with Some p => Done (Some (i, p)) | None => Fault FUB end
  end.
Definition wbegin (p : wpool) := wfirst_allocated (w_blocks p) 0.

(** One operation, a history. *)
Definition wpool_apply (p : wpool) (o : pop A) : outcome (wpool * option (nat * N)) :=
  match o with
  | PAlloc a at_ => ' (p, i, e) <- wAllocate p a at_ ;; Done (p, Some (i, e))
  | PDefer at_ => ' (p, i, e) <- wAllocate_defer p at_ ;; Done (p, Some (i, e))
  | PConstruct i a => p <- won_cell p i (fun m k => construct m k (Some a)) ;; Done (p, None)
  | PDestroy i => p <- won_cell p i destroy ;; Done (p, None)
  | PFree i => p <- wFree p i ;; Done (p, None)
  | PFreeNoDestruction i => p <- wFree_nodestruction p i ;; Done (p, None)
  | PClear => ' (p, _) <- wClear p ;; Done (p, None)
  end.
Fixpoint wpool_run (p : wpool) (ops : list (pop A)) : outcome (wpool * list (option (nat * N))) :=
  match ops with
  | [] => Done (p, [])
  | o :: ops => ' (p, r) <- wpool_apply p o ;; ' (p, rs) <- wpool_run p ops ;; Done (p, r :: rs)
  end.
End Pool.
