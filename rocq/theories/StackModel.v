(** Model of StackVector.hpp / .inl and StackArray.hpp / .inl.
    The memory given by the user is a block of a heap; a pointer is the number of a block, or null.
    Simplifications: T's members do not throw; platforms with alloca (the destructors then release no memory). *)
From Verif Require Export CellModel VectorSpec.
From Verif Require Import VectorModel.

Section Stack.
Context {A : Type}.
Notation heap := (list (list (cell A))).

(** StackVector.hpp 109-112 *)
Record svec := SV { v_capacity : nat; v_size : nat; v_ptr : option nat }.
(** StackArray.hpp 91-93 *)
Record sarr := SA { a_size : nat; a_ptr : option nat }.

(** Work on the block a pointer designates; dereferencing null is undefined. *)
Definition on_block (h : heap) (p : option nat) (f : list (cell A) -> outcome (list (cell A))) : outcome heap :=
  match p with
  | Some b => m <- vget h b ;; m' <- f m ;; vset h b m'
  | None => Fault FUB
  end.
Definition read_block (h : heap) (p : option nat) (i : nat) : outcome (option A) :=
  match p with Some b => m <- vget h b ;; read m i | None => Fault FUB end.

(** PlacementDestroy(&m_ptr[i]), MemoryHelper.inl 38-42: a no-op on null, but &null[i] is only null for i = 0. *)
Definition destroy_at (h : heap) (p : option nat) (i : nat) : outcome heap :=
  match p with
  | None => if i =? 0 then Done h else Fault FUB
  | Some _ => on_block h p (fun m => destroy m i)
  end.

(** StackVector() 19-24, StackVector(memory, capacity) 27-32 *)
Definition sv_null : svec := SV 0 0 None.
Definition sv_new (b cap : nat) : svec := SV cap 0 (Some b).

(** operator[] 321-325 (read and assignment), front 198-202, back 45-49 *)
Definition sv_at (h : heap) (v : svec) (i : nat) : outcome (option A) := assert (i <? v_size v) ;;; read_block h (v_ptr v) i.
Definition sv_set (h : heap) (v : svec) (i : nat) (a : A) : outcome heap :=
  assert (i <? v_size v) ;;; on_block h (v_ptr v) (fun m => assign m i (Some a)).
Definition sv_front (h : heap) (v : svec) : outcome (option A) := assert (negb (v_size v =? 0)) ;;; read_block h (v_ptr v) 0.
Definition sv_back (h : heap) (v : svec) : outcome (option A) := assert (negb (v_size v =? 0)) ;;; read_block h (v_ptr v) (v_size v - 1).

(** emplace 120-139, insert 212-221. [value] is what the reference argument designates when it is read at last, after the other elements have been moved. *)
Definition sv_emplace_from (h : heap) (v : svec) (pos : nat) (value : list (cell A) -> outcome (option A)) : outcome (heap * svec * nat) :=
  assert (v_size v <? v_capacity v) ;;;
  assert (pos <=? v_size v) ;;;
  let index := pos in
  let size := v_size v in
  h <- (if pos <? size then
          let last := size - 1 in
          on_block h (v_ptr v) (fun m =>
            ' (o, m) <- take m last ;;
            m <- construct m size o ;;
            m <- (if index <? last then move_backward m index (size - 1 - index) (index + 1) else Done m) ;;
            destroy m index)
        else Done h) ;;
  h <- on_block h (v_ptr v) (fun m => o <- value m ;; construct m index o) ;;
  Done (h, SV (v_capacity v) (size + 1) (v_ptr v), index).
(** An argument outside of the vector, and element [k] of the vector itself. *)
Definition sv_emplace (h : heap) (v : svec) (pos : nat) (a : A) := sv_emplace_from h v pos (fun _ => Done (Some a)).
Definition sv_emplace_own (h : heap) (v : svec) (pos k : nat) := sv_emplace_from h v pos (fun m => read m k).

(** emplace_back 143-147, push_back 230-241 *)
Definition sv_push_from (h : heap) (v : svec) (value : list (cell A) -> outcome (option A)) : outcome (heap * svec) :=
  assert (v_size v <? v_capacity v) ;;;
  h <- on_block h (v_ptr v) (fun m => o <- value m ;; construct m (v_size v) o) ;;
  Done (h, SV (v_capacity v) (v_size v + 1) (v_ptr v)).
Definition sv_push (h : heap) (v : svec) (a : A) := sv_push_from h v (fun _ => Done (Some a)).
Definition sv_push_own (h : heap) (v : svec) (k : nat) := sv_push_from h v (fun m => read m k).

(** pop_back 244-248 *)
Definition sv_pop (h : heap) (v : svec) : outcome (heap * svec) :=
  assert (negb (v_size v =? 0)) ;;;
  h <- destroy_at h (v_ptr v) (v_size v - 1) ;; Done (h, SV (v_capacity v) (v_size v - 1) (v_ptr v)).

(** resize 251-268 / 271-288 *)
Definition sv_resize (h : heap) (v : svec) (n : nat) (a : A) : outcome (heap * svec) :=
  assert (n <=? v_capacity v) ;;;
  if v_size v <? n then
    h <- foreach (range (v_size v) n) (fun h i => on_block h (v_ptr v) (fun m => construct m i (Some a))) h ;;
    Done (h, SV (v_capacity v) n (v_ptr v))
  else if n <? v_size v then
    h <- foreach (range n (v_size v)) (fun h i => destroy_at h (v_ptr v) i) h ;;
    Done (h, SV (v_capacity v) n (v_ptr v))
  else Done (h, v).

(** clear 77-80 *)
Definition sv_clear (dflt : A) (h : heap) (v : svec) : outcome (heap * svec) := sv_resize h v 0 dflt.

(** erase(pos) 168-176 *)
Definition sv_erase (h : heap) (v : svec) (pos : nat) : outcome (heap * svec * nat) :=
  assert (pos <? v_size v) ;;;
  let index := pos in
  h <- on_block h (v_ptr v) (fun m => move_forward m (index + 1) (v_size v - (index + 1)) index) ;;
  ' (h, v) <- sv_pop h v ;; Done (h, v, index).

(** erase(first, last) 179-195 *)
Definition sv_erase_range (dflt : A) (h : heap) (v : svec) (first last : nat) : outcome (heap * svec * nat) :=
  let index := first in
  if first =? last then Done (h, v, index)
  else
    assert (first <? last) ;;;
    assert (last <=? v_size v) ;;;
    let n := last - first in
    h <- on_block h (v_ptr v) (fun m => move_forward m (index + n) (v_size v - (index + n)) index) ;;
    ' (h, v) <- sv_resize h v (v_size v - n) dflt ;; Done (h, v, index).

(** ~StackVector 35-42 *)
Definition sv_destroy (dflt : A) (h : heap) (v : svec) : outcome heap := ' (h, _) <- sv_clear dflt h v ;; Done h.

(** StackVector(StackVector&&) = default (hpp 44): the members are moved one by one; MovablePtr's move leaves null (MovablePtr.inl 22-26). New vector, source. *)
Definition sv_move (v : svec) : svec * svec := (v, SV (v_capacity v) (v_size v) None).
(** operator=(StackVector&&) = default (hpp 107): MovablePtr's move assignment swaps (MovablePtr.inl 55-59). Target, source. *)
Definition sv_move_assign (dst src : svec) : svec * svec :=
  (SV (v_capacity src) (v_size src) (v_ptr src), SV (v_capacity src) (v_size src) (v_ptr dst)).

(** One operation, a history. StackVector has no reserve. *)
Definition sv_apply (dflt : A) (s : heap * svec) (o : vop A) : outcome (heap * svec * option nat) :=
  let '(h, v) := s in
  match o with
  | PushCopy a | PushMove a | EmplaceBack a => s <- sv_push h v a ;; Done (s, None)
  | Insert i a | InsertMove i a => ' (s, r) <- sv_emplace h v i a ;; Done (s, Some r)
  | Erase i => ' (s, r) <- sv_erase h v i ;; Done (s, Some r)
  | EraseRange i j => ' (s, r) <- sv_erase_range dflt h v i j ;; Done (s, Some r)
  | PopBack => s <- sv_pop h v ;; Done (s, None)
  | Resize n => s <- sv_resize h v n dflt ;; Done (s, None)
  | ResizeWith n a => s <- sv_resize h v n a ;; Done (s, None)
  | Reserve _ => Done (s, None)
  | Clear => s <- sv_clear dflt h v ;; Done (s, None)
  | SetAt i a => h <- sv_set h v i a ;; Done ((h, v), None)
  end.

Fixpoint sv_run (dflt : A) (s : heap * svec) (ops : list (vop A)) : outcome (heap * svec * list (option nat)) :=
  match ops with
  | [] => Done (s, [])
  | o :: ops => ' (s, r) <- sv_apply dflt s o ;; ' (s, rs) <- sv_run dflt s ops ;; Done (s, r :: rs)
  end.

(** ** StackArray *)
(** StackArray(memory, size) 26-32, with NoInitTag 35-39 *)
Definition sa_new (dflt : A) (h : heap) (b n : nat) : outcome (heap * sarr) :=
  h <- foreach (range 0 n) (fun h i => on_block h (Some b) (fun m => construct m i (Some dflt))) h ;; Done (h, SA n (Some b)).
Definition sa_noinit (b n : nat) : sarr := SA n (Some b).
(** ~StackArray 42-50 *)
Definition sa_destroy (h : heap) (a : sarr) : outcome heap := foreach (range 0 (a_size a)) (fun h i => destroy_at h (a_ptr a) i) h.
(** operator[] 185-189, back 53-57, front 141-144 (no assertion), fill 135-138 *)
Definition sa_at (h : heap) (a : sarr) (i : nat) : outcome (option A) := assert (i <? a_size a) ;;; read_block h (a_ptr a) i.
Definition sa_set (h : heap) (a : sarr) (i : nat) (x : A) : outcome heap := assert (i <? a_size a) ;;; on_block h (a_ptr a) (fun m => assign m i (Some x)).
Definition sa_back (h : heap) (a : sarr) : outcome (option A) := assert (negb (a_size a =? 0)) ;;; read_block h (a_ptr a) (a_size a - 1).
Definition sa_front (h : heap) (a : sarr) : outcome (option A) := read_block h (a_ptr a) 0.
Definition sa_fill (h : heap) (a : sarr) (x : A) : outcome heap :=
  foreach (range 0 (a_size a)) (fun h i => on_block h (a_ptr a) (fun m => assign m i (Some x))) h.
(** moves = default (hpp 48, 89) *)
Definition sa_move (a : sarr) : sarr * sarr := (a, SA (a_size a) None).
Definition sa_move_assign (dst src : sarr) : sarr * sarr := (SA (a_size src) (a_ptr src), SA (a_size src) (a_ptr dst)).
End Stack.
