(** StackVector and StackArray as compiled without assertions: the functions of StackModel.v whose assertions are gone, and those that call them. *)
From Verif Require Export CellModel VectorSpec StackModel.

Section Release.
Context {A : Type}.
Notation heap := (list (list (cell A))).

(** operator[] 321-325, front 198-202, back 45-49; on an empty vector m_size - 1 wraps *)
Definition rsv_at (h : heap) (v : svec) (i : nat) : outcome (option A) := read_block h (v_ptr v) i.
Definition rsv_set (h : heap) (v : svec) (i : nat) (a : A) : outcome heap := on_block h (v_ptr v) (fun m => assign m i (Some a)).
Definition rsv_front (h : heap) (v : svec) : outcome (option A) := read_block h (v_ptr v) 0.
Definition rsv_back (h : heap) (v : svec) : outcome (option A) := require (0 <? v_size v) ;;; read_block h (v_ptr v) (v_size v - 1).

(** emplace 120-139, insert 212-221 *)
Definition rsv_emplace_from (h : heap) (v : svec) (pos : nat) (value : list (cell A) -> outcome (option A)) : outcome (heap * svec * nat) :=
  let index := pos in
  let size := v_size v in
  h <- (if pos <? size then
          let last := size - 1 in
          on_block h (v_ptr v) (fun m =>
            ' (o, m) <- take m last ;;
            m <- construct m size o ;;
            m <- (if index <? last then move_backward m index (size - 1 - index) (index + 1) else Done m) ;;
            destroy m index)
        else Done h) ;;
  h <- on_block h (v_ptr v) (fun m => o <- value m ;; construct m index o) ;;
  Done (h, SV (v_capacity v) (size + 1) (v_ptr v), index).
Definition rsv_emplace (h : heap) (v : svec) (pos : nat) (a : A) := rsv_emplace_from h v pos (fun _ => Done (Some a)).
Definition rsv_emplace_own (h : heap) (v : svec) (pos k : nat) := rsv_emplace_from h v pos (fun m => read m k).

(** emplace_back 143-147, push_back 230-241 *)
Definition rsv_push_from (h : heap) (v : svec) (value : list (cell A) -> outcome (option A)) : outcome (heap * svec) :=
  h <- on_block h (v_ptr v) (fun m => o <- value m ;; construct m (v_size v) o) ;;
  Done (h, SV (v_capacity v) (v_size v + 1) (v_ptr v)).
Definition rsv_push (h : heap) (v : svec) (a : A) := rsv_push_from h v (fun _ => Done (Some a)).
Definition rsv_push_own (h : heap) (v : svec) (k : nat) := rsv_push_from h v (fun m => read m k).

(** pop_back 244-248: --m_size wraps on an empty vector *)
Definition rsv_pop (h : heap) (v : svec) : outcome (heap * svec) :=
  require (0 <? v_size v) ;;;
  h <- destroy_at h (v_ptr v) (v_size v - 1) ;; Done (h, SV (v_capacity v) (v_size v - 1) (v_ptr v)).

(** resize 251-268 / 271-288 *)
Definition rsv_resize (h : heap) (v : svec) (n : nat) (a : A) : outcome (heap * svec) :=
  if v_size v <? n then
    h <- foreach (range (v_size v) n) (fun h i => on_block h (v_ptr v) (fun m => construct m i (Some a))) h ;;
    Done (h, SV (v_capacity v) n (v_ptr v))
  else if n <? v_size v then
    h <- foreach (range n (v_size v)) (fun h i => destroy_at h (v_ptr v) i) h ;;
    Done (h, SV (v_capacity v) n (v_ptr v))
  else Done (h, v).

(** clear 77-80, ~StackVector 35-42 *)
Definition rsv_clear (dflt : A) (h : heap) (v : svec) : outcome (heap * svec) := rsv_resize h v 0 dflt.
Definition rsv_destroy (dflt : A) (h : heap) (v : svec) : outcome heap := ' (h, _) <- rsv_clear dflt h v ;; Done h.

(** erase(pos) 168-176: past the end, the range given to std::move is not one *)
Definition rsv_erase (h : heap) (v : svec) (pos : nat) : outcome (heap * svec * nat) :=
  let index := pos in
  require (index + 1 <=? v_size v) ;;;
  h <- on_block h (v_ptr v) (fun m => move_forward m (index + 1) (v_size v - (index + 1)) index) ;;
  ' (h, v) <- rsv_pop h v ;; Done (h, v, index).

(** erase(first, last) 179-195; for last before first std::distance is negative and the source range overlaps the target's beginning or is outside *)
Definition rsv_erase_range (dflt : A) (h : heap) (v : svec) (first last : nat) : outcome (heap * svec * nat) :=
  let index := first in
  if first =? last then Done (h, v, index)
  else
    require ((first <? last) && (last <=? v_size v)) ;;;
    let n := last - first in
    h <- on_block h (v_ptr v) (fun m => move_forward m (index + n) (v_size v - (index + n)) index) ;;
    ' (h, v) <- rsv_resize h v (v_size v - n) dflt ;; Done (h, v, index).

Definition rsv_apply (dflt : A) (s : heap * svec) (o : vop A) : outcome (heap * svec * option nat) :=
  let '(h, v) := s in
  match o with
  | PushCopy a | PushMove a | EmplaceBack a => s <- rsv_push h v a ;; Done (s, None)
  | Insert i a | InsertMove i a => ' (s, r) <- rsv_emplace h v i a ;; Done (s, Some r)
  | Erase i => ' (s, r) <- rsv_erase h v i ;; Done (s, Some r)
  | EraseRange i j => ' (s, r) <- rsv_erase_range dflt h v i j ;; Done (s, Some r)
  | PopBack => s <- rsv_pop h v ;; Done (s, None)
  | Resize n => s <- rsv_resize h v n dflt ;; Done (s, None)
  | ResizeWith n a => s <- rsv_resize h v n a ;; Done (s, None)
  | Reserve _ => Done (s, None)
  | Clear => s <- rsv_clear dflt h v ;; Done (s, None)
  | SetAt i a => h <- rsv_set h v i a ;; Done ((h, v), None)
  end.

Fixpoint rsv_run (dflt : A) (s : heap * svec) (ops : list (vop A)) : outcome (heap * svec * list (option nat)) :=
  match ops with
  | [] => Done (s, [])
  | o :: ops => ' (s, r) <- rsv_apply dflt s o ;; ' (s, rs) <- rsv_run dflt s ops ;; Done (s, r :: rs)
  end.

(** StackArray: operator[] 185-189, back 53-57 *)
Definition rsa_at (h : heap) (a : sarr) (i : nat) : outcome (option A) := read_block h (a_ptr a) i.
Definition rsa_set (h : heap) (a : sarr) (i : nat) (x : A) : outcome heap := on_block h (a_ptr a) (fun m => assign m i (Some x)).
Definition rsa_back (h : heap) (a : sarr) : outcome (option A) := require (0 <? a_size a) ;;; read_block h (a_ptr a) (a_size a - 1).
End Release.
