(** Model of FixedVector.hpp / FixedVector.inl (FixedVector and HybridVector).
    Simplifications: constructors and assignments of T do not throw; the address of an element is its index (inline or fallback);
    the fallback is a std::vector, modelled by its contents (its capacity is not modelled, so reserve() on it changes nothing). *)
From Verif Require Export CellModel VectorSpec.

(** m_size, FixedVector.hpp 126-128: a count, or the sentinel FallbackInUse. *)
Inductive vsize := Count (n : nat) | FallbackInUse.

Record fvec (A : Type) := FV { m_size : vsize; m_data : list (cell A); fallback : list (option A) }.
Arguments FV {A}.
Arguments m_size {A}.
Arguments m_data {A}.
Arguments fallback {A}.

(** How an argument is passed: const T& or T&& bound to an object outside the vector, or const T& bound to element k of the vector itself. *)
Inductive arg (A : Type) := ByCopy (a : A) | ByMove (a : A) | OwnElement (k : nat).
Arguments ByCopy {A} a.
Arguments ByMove {A} a.
Arguments OwnElement {A} k.

(** What such a reference designates, resolved when the call is made. *)
Inductive target (A : Type) := Outside (a : A) | InlineCell (k : nat) | FallbackCell (k : nat).
Arguments Outside {A} a.
Arguments InlineCell {A} k.
Arguments FallbackCell {A} k.

Section Vector.
Context {A : Type}.
(** Fallback is not void; the template parameter Capacity; the value T{}. *)
Variables (has : bool) (cap : nat) (dflt : A).

Definition is_move (x : arg A) : bool := match x with ByMove _ => true | _ => false end.

(** IsUsingFallback 755-761 *)
Definition IsUsingFallback (v : fvec A) : bool := has && match m_size v with FallbackInUse => true | Count _ => false end.

(** m_size as a number; only read when the fallback is not in use. *)
Definition count (v : fvec A) : nat := match m_size v with Count n => n | FallbackInUse => 0 end.

(** FixedVector() 183-186 *)
Definition fv_new : fvec A := FV (Count 0) (repeat Raw cap) [].

(** size 666-675, empty 405-414 *)
Definition fv_size (v : fvec A) : nat := if IsUsingFallback v then length (fallback v) else count v.
Definition fv_empty (v : fvec A) : bool := if IsUsingFallback v then length (fallback v) =? 0 else count v =? 0.

(** data(n) 332-341 then a read / an assignment through the pointer *)
Definition fv_load (v : fvec A) (n : nat) : outcome (option A) := if IsUsingFallback v then vget (fallback v) n else read (m_data v) n.
Definition fv_store (v : fvec A) (n : nat) (o : option A) : outcome (fvec A) :=
  if IsUsingFallback v then f <- vset (fallback v) n o ;; Done (FV (m_size v) (m_data v) f)
  else m <- assign (m_data v) n o ;; Done (FV (m_size v) m (fallback v)).

(** operator[] 678-682 (read, and assignment of a value through the reference) *)
Definition fv_at (v : fvec A) (i : nat) : outcome (option A) := assert (i <? fv_size v) ;;; fv_load v i.
Definition fv_set (v : fvec A) (i : nat) (a : A) : outcome (fvec A) := assert (i <? fv_size v) ;;; fv_store v i (Some a).
(** front 476-480, back 245-249 *)
Definition fv_front (v : fvec A) : outcome (option A) := assert (negb (fv_empty v)) ;;; fv_load v 0.
Definition fv_back (v : fvec A) : outcome (option A) := assert (negb (fv_empty v)) ;;; fv_load v (fv_size v - 1).

(** Where a reference argument points, before anything happens. *)
Definition resolve (v : fvec A) (x : arg A) : target A :=
  match x with
  | ByCopy a | ByMove a => Outside a
  | OwnElement k => if IsUsingFallback v then FallbackCell k else InlineCell k
  end.
(** The value T is constructed from when the reference is finally read. *)
Definition fetch (v : fvec A) (t : target A) : outcome (option A) :=
  match t with
  | Outside a => Done (Some a)
  | InlineCell k => read (m_data v) k
  | FallbackCell k => vget (fallback v) k
  end.

(** MoveStorageToFallback 764-776 *)
Definition MoveStorageToFallback (v : fvec A) : outcome (fvec A) :=
  assert (negb (IsUsingFallback v)) ;;;
  ' (m, f) <- foreach (range 0 (count v))
    (fun '(m, f) i => ' (o, m1) <- take m i ;; m2 <- destroy m1 i ;; Done (m2, f ++ [o])) (m_data v, fallback v) ;;
  Done (FV FallbackInUse m f).

(** CheckFallbackOnGrow 735-752 *)
Definition CheckFallbackOnGrow (v : fvec A) : outcome (fvec A * bool) :=
  if has then
    if IsUsingFallback v then Done (v, true)
    else if cap <=? count v then v' <- MoveStorageToFallback v ;; Done (v', true)
    else Done (v, false)
  else Done (v, false).

(** std::vector::emplace(begin() + index, x): x may be an element of the vector itself when it is a const reference. *)
Definition EmplaceInFallback (v : fvec A) (index : nat) (t : target A) : outcome (fvec A) :=
  require (index <=? length (fallback v)) ;;;
  o <- fetch v t ;; Done (FV (m_size v) (m_data v) (firstn index (fallback v) ++ o :: skipn index (fallback v))).

(** emplace 363-388, with its arguments forwarded: the iterator (as an index) and whether the argument was moved from. *)
Definition fv_emplace (v : fvec A) (pos : nat) (x : arg A) : outcome (fvec A * nat * bool) :=
  assert (pos <=? fv_size v) ;;;
  let t := resolve v x in
  let index := pos in
  ' (v, spilled) <- CheckFallbackOnGrow v ;;
  if spilled : bool then v <- EmplaceInFallback v index t ;; Done (v, index, is_move x)
  else
    assert (count v <? cap) ;;;
    v <- (if pos <? count v then
            let last := count v - 1 in
            ' (o, m) <- take (m_data v) last ;;
            m <- construct m (count v) o ;;
            m <- (if index <? last then move_backward m index (count v - 1 - index) (index + 1) else Done m) ;;
            m <- destroy m index ;;
            Done (FV (m_size v) m (fallback v))
          else Done v) ;;
    o <- fetch v t ;;
    m <- construct (m_data v) index o ;;
    Done (FV (Count (count v + 1)) m (fallback v), index, is_move x).

(** insert 490-499 *)
Definition fv_insert := fv_emplace.

(** emplace_back 392-402 *)
Definition fv_emplace_back (v : fvec A) (x : arg A) : outcome (fvec A * bool) :=
  let t := resolve v x in
  ' (v, spilled) <- CheckFallbackOnGrow v ;;
  if spilled : bool then v <- EmplaceInFallback v (length (fallback v)) t ;; Done (v, is_move x)
  else
    assert (count v <? cap) ;;;
    o <- fetch v t ;;
    m <- construct (m_data v) (count v) o ;;
    Done (FV (Count (count v + 1)) m (fallback v), is_move x).

(** push_back(const T&) 511-521 and push_back(T&&) 524-534. In the fallback branch of the second, [value] is passed on as an lvalue (529). *)
Definition fv_push_back (v : fvec A) (x : arg A) : outcome (fvec A * bool) :=
  let t := resolve v x in
  ' (v, spilled) <- CheckFallbackOnGrow v ;;
  if spilled : bool then v <- EmplaceInFallback v (length (fallback v)) t ;; Done (v, false)
  else
    assert (count v <? cap) ;;;
    o <- fetch v t ;;
    m <- construct (m_data v) (count v) o ;;
    Done (FV (Count (count v + 1)) m (fallback v), is_move x).

(** pop_back 537-550; std::vector::pop_back of an empty vector is undefined *)
Definition fv_pop_back (v : fvec A) : outcome (fvec A) :=
  if IsUsingFallback v then
    require (negb (length (fallback v) =? 0)) ;;; Done (FV (m_size v) (m_data v) (removelast (fallback v)))
  else
    assert (negb (fv_empty v)) ;;;
    m <- destroy (m_data v) (count v - 1) ;; Done (FV (Count (count v - 1)) m (fallback v)).

(** resize 553-585 / 588-620; the value is T{} or an argument, which may be an element of the vector *)
Definition fv_resize_with (v : fvec A) (n : nat) (x : arg A) : outcome (fvec A) :=
  let t := resolve v x in
  if IsUsingFallback v then
    o <- (if length (fallback v) <? n then fetch v t else Done None) ;; Done (FV (m_size v) (m_data v) (vresize (fallback v) n o))
  else if has && (cap <? n) then
    v <- MoveStorageToFallback v ;;
    o <- (if length (fallback v) <? n then fetch v t else Done None) ;; Done (FV (m_size v) (m_data v) (vresize (fallback v) n o))
  else
    assert (n <=? cap) ;;;
    if count v <? n then
      m <- foreach (range (count v) n) (fun m i => o <- fetch (FV (m_size v) m (fallback v)) t ;; construct m i o) (m_data v) ;;
      Done (FV (Count n) m (fallback v))
    else if n <? count v then
      m <- destroy_range (m_data v) n (count v) ;; Done (FV (Count n) m (fallback v))
    else Done v.
Definition fv_resize (v : fvec A) (n : nat) : outcome (fvec A) := fv_resize_with v n (ByCopy dflt).

(** reserve 623-638 *)
Definition fv_reserve (v : fvec A) (n : nat) : outcome (fvec A) :=
  if has then
    if n <=? cap then Done v
    else if negb (IsUsingFallback v) then MoveStorageToFallback v
    else Done v
  else assert (n <=? cap) ;;; Done v.

(** clear 283-299 *)
Definition fv_clear (v : fvec A) : outcome (fvec A) :=
  if IsUsingFallback v then Done (FV (m_size v) (m_data v) [])
  else m <- destroy_range (m_data v) 0 (count v) ;; Done (FV (Count 0) m (fallback v)).

(** erase(pos) 429-444 *)
Definition fv_erase (v : fvec A) (pos : nat) : outcome (fvec A * nat) :=
  assert (pos <? fv_size v) ;;;
  let index := pos in
  if IsUsingFallback v then
    Done (FV (m_size v) (m_data v) (firstn index (fallback v) ++ skipn (index + 1) (fallback v)), index)
  else
    m <- move_forward (m_data v) (index + 1) (count v - (index + 1)) index ;;
    v <- fv_pop_back (FV (m_size v) m (fallback v)) ;;
    Done (v, index).

(** erase(first, last) 447-473; an invalid range given to std::vector::erase is undefined *)
Definition fv_erase_range (v : fvec A) (first last : nat) : outcome (fvec A * nat) :=
  if IsUsingFallback v then
    require ((first <=? last) && (last <=? length (fallback v))) ;;;
    Done (FV (m_size v) (m_data v) (firstn first (fallback v) ++ skipn last (fallback v)), first)
  else
    let index := first in
    if first =? last then Done (v, index)
    else
      assert (first <? last) ;;;
      assert (last <=? fv_size v) ;;;
      let n := last - first in
      m <- move_forward (m_data v) (index + n) (count v - (index + n)) index ;;
      v <- fv_resize (FV (m_size v) m (fallback v)) (fv_size v - n) ;;
      Done (v, index).

(** FixedVector(size, value) 189-193, FixedVector(first, last) and initializer_list 197-208 *)
Definition fv_new_size (n : nat) (a : A) : outcome (fvec A) := fv_resize_with fv_new n (ByCopy a).
Definition fv_new_list (l : list A) : outcome (fvec A) :=
  foreach (seq 0 (length l)) (fun v i => ' (v, _) <- fv_emplace_back v (ByCopy (nth i l dflt)) ;; Done v) fv_new.

(** A copy or moved value pushed by the copy and move members: the value may be that of a moved-from object. *)
Definition push_value (v : fvec A) (o : option A) : outcome (fvec A * bool) :=
  ' (v, spilled) <- CheckFallbackOnGrow v ;;
  if spilled : bool then Done (FV (m_size v) (m_data v) (fallback v ++ [o]), true)
  else
    assert (count v <? cap) ;;;
    m <- construct (m_data v) (count v) o ;; Done (FV (Count (count v + 1)) m (fallback v), false).

(** FixedVector(const FixedVector&) 211-222 *)
Definition fv_copy (src : fvec A) : outcome (fvec A) :=
  let v := FV (Count 0) (repeat Raw cap) (fallback src) in
  if negb (IsUsingFallback src) then
    foreach (range 0 (fv_size src)) (fun v i => o <- fv_at src i ;; ' (v, _) <- push_value v o ;; Done v) v
  else Done (FV FallbackInUse (repeat Raw cap) (fallback src)).

(** FixedVector(FixedVector&&) 225-236: the new vector and the moved-from one. A moved-from std::vector is empty. *)
Definition fv_move (src : fvec A) : outcome (fvec A * fvec A) :=
  let v := FV (Count 0) (repeat Raw cap) (fallback src) in
  let src := FV (m_size src) (m_data src) [] in
  if negb (IsUsingFallback src) then
    foreach (range 0 (fv_size src))
      (fun '(v, src) i =>
        assert (i <? fv_size src) ;;;
        ' (o, m) <- take (m_data src) i ;; ' (v, _) <- push_value v o ;; Done (v, FV (m_size src) m (fallback src))) (v, src)
  else Done (FV FallbackInUse (repeat Raw cap) (fallback v), src).

(** ~FixedVector 239-242: clear(), then the fallback destroys its elements. What is left in the inline storage. *)
Definition fv_destroy (v : fvec A) : outcome (list (cell A)) := v <- fv_clear v ;; Done (m_data v).

(** operator=(const FixedVector&) 692-710. Target and source are designated by their place in a list of vectors, so that they can be the same. *)
Definition fv_assign (st : list (fvec A)) (d s : nat) : outcome (list (fvec A)) :=
  src <- vget st s ;;
  dst <- vget st d ;;
  if IsUsingFallback src then vset st d (FV (m_size src) (m_data dst) (fallback src))
  else
    dst <- fv_clear dst ;;
    st <- vset st d dst ;;
    src <- vget st s ;;
    dst <- vget st d ;;
    dst <- fv_reserve dst (fv_size src) ;;
    st <- vset st d dst ;;
    src <- vget st s ;;
    foreach (range 0 (fv_size src))
      (fun st i => src <- vget st s ;; dst <- vget st d ;; o <- fv_at src i ;; ' (dst, _) <- push_value dst o ;; vset st d dst) st.

(** operator=(FixedVector&&) 713-732. Move-assigning a std::vector empties the source; onto itself it is left empty
    (libstdc++; the standard only says valid but unspecified). Pushed to a fallback, the elements are copied (529) and keep their value. *)
Definition fv_move_assign (st : list (fvec A)) (d s : nat) : outcome (list (fvec A)) :=
  st <- (if has then
           src <- vget st s ;;
           dst <- vget st d ;;
           st <- vset st d (FV (m_size dst) (m_data dst) (fallback src)) ;;
           src <- vget st s ;;
           vset st s (FV (m_size src) (m_data src) [])
         else Done st) ;;
  src <- vget st s ;;
  dst <- vget st d ;;
  if IsUsingFallback src then vset st d (FV (m_size src) (m_data dst) (fallback dst))
  else
    dst <- fv_clear dst ;;
    st <- vset st d dst ;;
    src <- vget st s ;;
    dst <- vget st d ;;
    dst <- fv_reserve dst (fv_size src) ;;
    st <- vset st d dst ;;
    src <- vget st s ;;
    foreach (range 0 (fv_size src))
      (fun st i =>
        src <- vget st s ;;
        assert (i <? fv_size src) ;;;
        dst <- vget st d ;;
        o <- read (m_data src) i ;;
        ' (dst, copied) <- push_value dst o ;;
        st <- vset st d dst ;;
        src <- vget st s ;;
        m <- (if copied : bool then Done (m_data src) else ' (_, m) <- take (m_data src) i ;; Done m) ;;
        vset st s (FV (m_size src) m (fallback src))) st.
End Vector.

(** One operation, and a history of operations, on the model. *)
Definition fv_apply {A} has cap (dflt : A) (v : fvec A) (o : vop A) : outcome (fvec A * option nat) :=
  match o with
  | PushCopy a => ' (v, _) <- fv_push_back has cap v (ByCopy a) ;; Done (v, None)
  | PushMove a => ' (v, _) <- fv_push_back has cap v (ByMove a) ;; Done (v, None)
  | EmplaceBack a => ' (v, _) <- fv_emplace_back has cap v (ByCopy a) ;; Done (v, None)
  | Insert i a => ' (v, r, _) <- fv_insert has cap v i (ByCopy a) ;; Done (v, Some r)
  | InsertMove i a => ' (v, r, _) <- fv_insert has cap v i (ByMove a) ;; Done (v, Some r)
  | Erase i => ' (v, r) <- fv_erase has v i ;; Done (v, Some r)
  | EraseRange i j => ' (v, r) <- fv_erase_range has cap dflt v i j ;; Done (v, Some r)
  | PopBack => v <- fv_pop_back has v ;; Done (v, None)
  | Resize n => v <- fv_resize has cap dflt v n ;; Done (v, None)
  | ResizeWith n a => v <- fv_resize_with has cap v n (ByCopy a) ;; Done (v, None)
  | Reserve n => v <- fv_reserve has cap v n ;; Done (v, None)
  | Clear => v <- fv_clear has v ;; Done (v, None)
  | SetAt i a => v <- fv_set has v i a ;; Done (v, None)
  end.

Fixpoint fv_run {A} has cap (dflt : A) (v : fvec A) (ops : list (vop A)) : outcome (fvec A * list (option nat)) :=
  match ops with
  | [] => Done (v, [])
  | o :: ops => ' (v, r) <- fv_apply has cap dflt v o ;; ' (v, rs) <- fv_run has cap dflt v ops ;; Done (v, r :: rs)
  end.
