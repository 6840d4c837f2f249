(** Model of the iterators of FixedVector (FixedVector.inl 259-268, 302-323, 417-426, 641-662), StackVector (StackVector.inl 52-68, 83-104, 150-165, 291-312)
    and StackArray (StackArray.inl 61-100, 121-136, 157-178).
    Iterators are pointers: a position in the storage in use. reverse_iterator is std::reverse_iterator, whose operator* reads the element before its base.
    A loop compares iterators with !=, as range-based for does; the fuel stands for a loop that never meets its end. *)
From Verif Require Export CellModel VectorModel StackModel.

Section Loops.
Context {A S : Type}.
Variable load : S -> nat -> outcome (option A).
Variable store : S -> nat -> option A -> outcome S.

(** for (it = first; it != last; ++it) out.push_back( *it ), and with -- on the base of reverse iterators *)
Fixpoint walk (fuel : nat) (s : S) (it last : nat) : outcome (list (option A)) :=
  match fuel with
  | O => Fault FDiverge
  | Datatypes.S fuel => if it =? last then Done [] else x <- load s it ;; r <- walk fuel s (it + 1) last ;; Done (x :: r)
  end.
Fixpoint walk_back (fuel : nat) (s : S) (base last : nat) : outcome (list (option A)) :=
  match fuel with
  | O => Fault FDiverge
  | Datatypes.S fuel =>
    if base =? last then Done []
    else require (negb (base =? 0)) ;;; x <- load s (base - 1) ;; r <- walk_back fuel s (base - 1) last ;; Done (x :: r)
  end.
(** for (T& x : v) x = f(x), forwards and backwards *)
Fixpoint write (f : A -> A) (fuel : nat) (s : S) (it last : nat) : outcome S :=
  match fuel with
  | O => Fault FDiverge
  | Datatypes.S fuel => if it =? last then Done s else x <- load s it ;; s <- store s it (option_map f x) ;; write f fuel s (it + 1) last
  end.
Fixpoint write_back (f : A -> A) (fuel : nat) (s : S) (base last : nat) : outcome S :=
  match fuel with
  | O => Fault FDiverge
  | Datatypes.S fuel =>
    if base =? last then Done s
    else require (negb (base =? 0)) ;;; x <- load s (base - 1) ;; s <- store s (base - 1) (option_map f x) ;; write_back f fuel s (base - 1) last
  end.
End Loops.

Section Containers.
Context {A : Type}.
(** FixedVector and HybridVector: begin() = data(), end() = data(size()), rbegin() has base data(size()), rend() base data() *)
Definition fv_iterate (has : bool) (v : fvec A) (fuel : nat) := walk (fv_load has) fuel v 0 (fv_size has v).
Definition fv_iterate_back (has : bool) (v : fvec A) (fuel : nat) := walk_back (fv_load has) fuel v (fv_size has v) 0.
Definition fv_transform (has : bool) (f : A -> A) (v : fvec A) (fuel : nat) := write (fv_load has) (fv_store has) f fuel v 0 (fv_size has v).
Definition fv_transform_back (has : bool) (f : A -> A) (v : fvec A) (fuel : nat) := write_back (fv_load has) (fv_store has) f fuel v (fv_size has v) 0.
(** StackVector and StackArray: begin() = &m_ptr[0], end() = &m_ptr[m_size]; [p], [n] are m_ptr and m_size *)
Definition block_iterate (h : list (list (cell A))) (p : option nat) (n fuel : nat) := walk (fun h i => read_block h p i) fuel h 0 n.
Definition block_iterate_back (h : list (list (cell A))) (p : option nat) (n fuel : nat) := walk_back (fun h i => read_block h p i) fuel h n 0.
Definition block_transform (f : A -> A) (h : list (list (cell A))) (p : option nat) (n fuel : nat) :=
  write (fun h i => read_block h p i) (fun h i o => on_block h p (fun m => assign m i o)) f fuel h 0 n.
Definition block_transform_back (f : A -> A) (h : list (list (cell A))) (p : option nat) (n fuel : nat) :=
  write_back (fun h i => read_block h p i) (fun h i o => on_block h p (fun m => assign m i o)) f fuel h n 0.
End Containers.
