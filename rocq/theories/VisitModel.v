(** Range-based for loops whose body changes the container it goes over: MemoryPool.inl 310-345, 411-475; Bitset.inl 1427-1464. *)
From Verif Require Export PoolModel BitsetHistory.
Open Scope nat_scope.

(** [for (T& entry : pool) body]: operator*, the body, operator++. [beh] tells what the body does from the indices visited so far, the current one included. *)
Section PoolVisit.
Context {A : Type}.
Variables (stride : N) (beh : list nat -> list (pop A)).
Fixpoint pool_visit_loop (fuel : nat) (p : @pool A) (it : option (nat * nat)) (seen : list nat) : outcome (@pool A * list nat) :=
  match it with
  | None => Done (p, seen)
  | Some (i, j) =>
    match fuel with
    | O => Fault FDiverge
    | S fuel =>
      _ <- GetAllocatedPointer stride p i j ;;
      let seen := seen ++ [i * m_blockSize p + j] in
      ' (p, _) <- pool_run stride p (beh seen) ;;
      next <- GetNextAllocatedEntry p i j ;;
      pool_visit_loop fuel p next seen
    end
  end.
Definition pool_visit (fuel : nat) (p : @pool A) : outcome (@pool A * list nat) := it <- GetFirstAllocatedEntryFromBlock p 0 ;; pool_visit_loop fuel p it [].
End PoolVisit.

(** [for (std::size_t bit : bitsets[r].IterBits()) body] among named bitsets. *)
Section BitVisit.
Variables (w : nat) (r : nat) (beh : list nat -> list op).
Fixpoint bit_visit_loop (fuel : nat) (st : nat -> bitset) (it : option nat) (seen : list nat) : outcome ((nat -> bitset) * list nat) :=
  match it with
  | None => Done (st, seen)
  | Some p =>
    match fuel with
    | O => Fault FDiverge
    | S fuel =>
      let seen := seen ++ [p] in
      st <- run w st (beh seen) ;;
      next <- iter_incr w (st r) it ;;
      bit_visit_loop fuel st next seen
    end
  end.
Definition bit_visit (fuel : nat) (st : nat -> bitset) : outcome ((nat -> bitset) * list nat) := bit_visit_loop fuel st (iter_begin w (st r)) [].
End BitVisit.
