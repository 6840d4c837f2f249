(** MemoryPool whose entries use the pool themselves: constructors and destructors that call Allocate and Free of the pool that holds them (nodes of trees and
    graphs). MemoryPool.inl 93-100 (Allocate), 126-140 (Free), 219-237 (Reset), 109-114 (Clear), 36-39 (destructor).
    [ctor a], [dtor a]: the calls the constructor and the destructor of the object [a] make. The lifetime of an object begins when its constructor returns and ends
    when its destructor is called ([basic.life]); destroying an object that is not alive is undefined.
    Simplified: growing m_blocks always invalidates the references into it. [depth] bounds how deep the calls nest. *)
From Verif Require Export PoolModel.
Open Scope nat_scope.

Inductive call A := CAlloc (a : A) (at_ : N) | CFree (i : nat).
Arguments CAlloc {A}. Arguments CFree {A}.
Fixpoint each {B S} (f : B -> S -> outcome S) (l : list B) (s : S) : outcome S := match l with [] => Done s | x :: l => s <- f x s ;; each f l s end.

Section Reenter.
Context {A : Type}.
Variables (stride : N) (ctor dtor : A -> list (call A)).

(** PlacementDestroy(entry): the object whose destructor runs. *)
Definition object_at (p : @pool A) (index : nat) : outcome A :=
  b <- vget (m_blocks p) (index / m_blockSize p) ;; match nth_error (memory b) (index mod m_blockSize p) with Some (Obj (Some a)) => Done a | _ => Fault FUB end.
Definition exec_one (rec : list (call A) -> @pool A -> outcome (@pool A)) (c : call A) (p : @pool A) : outcome (@pool A) :=
  match c with
  | CAlloc a at_ => ' (p, index, _) <- Allocate_defer stride p at_ ;; p <- rec (ctor a) p ;; user_construct p index a
  | CFree index =>
    ' (blockIndex, localIndex) <- split_index p index ;;
    _ <- GetAllocatedPointer stride p blockIndex localIndex ;;
    a <- object_at p index ;; p <- user_destroy p index ;; p <- rec (dtor a) p ;;
    release p blockIndex localIndex
  end.
Fixpoint exec (depth : nat) (l : list (call A)) (p : @pool A) : outcome (@pool A) :=
  match depth with O => Fault FDiverge | S depth => each (exec_one (exec depth)) l p end.

(** Reset: the inner loop over block [blockIndex], of [n] blocks; [block] is a reference into m_blocks. *)
Fixpoint reset_entries (fuel depth blockIndex n : nat) (it : option nat) (p : @pool A) : outcome (@pool A) :=
  match it with
  | None => Done p
  | Some localIndex =>
    match fuel with
    | O => Fault FDiverge
    | S fuel =>
      let index := blockIndex * m_blockSize p + localIndex in
      a <- object_at p index ;; p <- user_destroy p index ;; p <- exec depth (dtor a) p ;;
      require (length (m_blocks p) =? n) ;;;
      b <- vget (m_blocks p) blockIndex ;; next <- FindNext 64 (occupiedEntries b) localIndex ;;
      reset_entries fuel depth blockIndex n next p
    end
  end.
Definition reset_at (depth blockIndex : nat) (p : @pool A) : outcome (@pool A) :=
  b <- vget (m_blocks p) blockIndex ;;
  if occupiedEntryCount b =? 0 then Done p
  else
    p <- reset_entries (m_blockSize p) depth blockIndex (length (m_blocks p)) (FindFirst 64 (occupiedEntries b)) p ;;
    b <- vget (m_blocks p) blockIndex ;;
    f <- ResetBit 64 (freeEntries b) 1 ;;
    o <- ResetBit 64 (occupiedEntries b) 0 ;;
    l <- vset (m_blocks p) blockIndex (PB (base b) 0 (memory b) f o) ;;
    Done (MP (m_blockSize p) l).
Fixpoint reset_from (fuel depth blockIndex : nat) (p : @pool A) : outcome (@pool A) :=
  if blockIndex <? length (m_blocks p) then
    match fuel with O => Fault FDiverge | S fuel => p <- reset_at depth blockIndex p ;; reset_from fuel depth (blockIndex + 1) p end
  else Done p.
(** Clear and the destructor: the blocks whose memory is released. *)
Definition reenter_clear (fuel depth : nat) (p : @pool A) : outcome (@pool A * list (@pblock A)) :=
  p <- reset_from fuel depth 0 p ;; Done (MP (m_blockSize p) [], m_blocks p).
Definition reenter_destroy (fuel depth : nat) (p : @pool A) : outcome (list (@pblock A)) := p <- reset_from fuel depth 0 p ;; Done (m_blocks p).
End Reenter.
