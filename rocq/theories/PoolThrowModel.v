(** Model of MemoryPool::Allocate and AllocateBlock (MemoryPool.inl) when the constructor of T or an allocation throws. *)
From Verif Require Import PoolModel.
Open Scope nat_scope.

Section PoolThrow.
Context {A : Type}.
Variable stride : N.

(** Allocate(index, args...) 93-100 when the constructor called by PlacementNew throws: the pool at that point, and the index, already written. *)
Definition Allocate_throwing (p : @pool A) (at_ : N) : outcome (@pool A * nat) := ' (p, index, _) <- Allocate_defer stride p at_ ;; Done (p, index).

(** AllocateBlock 354-360 when std::bad_alloc leaves it: the pool at that point. The block is in m_blocks before its members are set.
    A null [memory] has no cells. *)
Inductive stage := InVector | InFree | InOccupied | InMemory.
Definition AllocateBlock_throwing (p : @pool A) (k : stage) : outcome (@pool A) :=
  match k with
  | InVector => Done p
  | InFree => Done (MP (m_blockSize p) (m_blocks p ++ [PB 0 0 [] empty empty]))
  | InOccupied => f <- Resize 64 empty (m_blockSize p) true ;; Done (MP (m_blockSize p) (m_blocks p ++ [PB 0 0 [] f empty]))
  | InMemory =>
    f <- Resize 64 empty (m_blockSize p) true ;;
    o <- Resize 64 empty (m_blockSize p) false ;;
    Done (MP (m_blockSize p) (m_blocks p ++ [PB 0 0 [] f o]))
  end.
End PoolThrow.
