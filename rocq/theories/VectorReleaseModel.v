(** FixedVector and HybridVector as compiled without assertions: the functions of VectorModel.v whose assertions are gone, and those that call them. *)
From Verif Require Export CellModel VectorSpec VectorModel.

Section Release.
Context {A : Type}.
Variables (has : bool) (cap : nat) (dflt : A).

(** operator[] 678-682 (read, and assignment of a value through the reference) *)
Definition rv_at (v : fvec A) (i : nat) : outcome (option A) := fv_load has v i.

Definition rv_set (v : fvec A) (i : nat) (a : A) : outcome (fvec A) := fv_store has v i (Some a).

(** front 476-480, back 245-249 *)
Definition rv_front (v : fvec A) : outcome (option A) := fv_load has v 0.

Definition rv_back (v : fvec A) : outcome (option A) := fv_load has v (fv_size has v - 1).

(** MoveStorageToFallback 764-776 *)
Definition rMoveStorageToFallback (v : fvec A) : outcome (fvec A) :=
  ' (m, f) <- foreach (range 0 (count v))
    (fun '(m, f) i => ' (o, m1) <- take m i ;; m2 <- destroy m1 i ;; Done (m2, f ++ [o])) (m_data v, fallback v) ;;
  Done (FV FallbackInUse m f).

(** CheckFallbackOnGrow 735-752 *)
Definition rCheckFallbackOnGrow (v : fvec A) : outcome (fvec A * bool) :=
  if has then
    if IsUsingFallback has v then Done (v, true)
    else if cap <=? count v then v' <- rMoveStorageToFallback v ;; Done (v', true)
    else Done (v, false)
  else Done (v, false).

(** emplace 363-388, with its arguments forwarded: the iterator (as an index) and whether the argument was moved from. *)
Definition rv_emplace (v : fvec A) (pos : nat) (x : arg A) : outcome (fvec A * nat * bool) :=
  let t := resolve has v x in
  let index := pos in
  ' (v, spilled) <- rCheckFallbackOnGrow v ;;
  if spilled : bool then v <- EmplaceInFallback v index t ;; Done (v, index, is_move x)
  else
    v <- (if pos <? count v then
            let last := count v - 1 in
            ' (o, m) <- take (m_data v) last ;;
            m <- construct m (count v) o ;;
            m <- (if index <? last then move_backward m index (count v - 1 - index) (index + 1) else Done m) ;;
            m <- destroy m index ;;
            Done (FV (m_size v) m (fallback v))
          else Done v) ;;
    o <- fetch v t ;;
    m <- construct (m_data v) index o ;;
    Done (FV (Count (count v + 1)) m (fallback v), index, is_move x).

(** insert 490-499 *)
Definition rv_insert := rv_emplace.

(** emplace_back 392-402 *)
Definition rv_emplace_back (v : fvec A) (x : arg A) : outcome (fvec A * bool) :=
  let t := resolve has v x in
  ' (v, spilled) <- rCheckFallbackOnGrow v ;;
  if spilled : bool then v <- EmplaceInFallback v (length (fallback v)) t ;; Done (v, is_move x)
  else
    o <- fetch v t ;;
    m <- construct (m_data v) (count v) o ;;
    Done (FV (Count (count v + 1)) m (fallback v), is_move x).

(** push_back(const T&) 511-521 and push_back(T&&) 524-534. In the fallback branch of the second, [value] is passed on as an lvalue (529). *)
Definition rv_push_back (v : fvec A) (x : arg A) : outcome (fvec A * bool) :=
  let t := resolve has v x in
  ' (v, spilled) <- rCheckFallbackOnGrow v ;;
  if spilled : bool then v <- EmplaceInFallback v (length (fallback v)) t ;; Done (v, false)
  else
    o <- fetch v t ;;
    m <- construct (m_data v) (count v) o ;;
    Done (FV (Count (count v + 1)) m (fallback v), is_move x).

(** pop_back 537-550; std::vector::pop_back of an empty vector is undefined, and --m_size wraps on an empty one *)
Definition rv_pop_back (v : fvec A) : outcome (fvec A) :=
  if IsUsingFallback has v then
    require (negb (length (fallback v) =? 0)) ;;; Done (FV (m_size v) (m_data v) (removelast (fallback v)))
  else
    require (0 <? count v) ;;;
    m <- destroy (m_data v) (count v - 1) ;; Done (FV (Count (count v - 1)) m (fallback v)).

(** resize 553-585 / 588-620; the value is T{} or an argument, which may be an element of the vector *)
Definition rv_resize_with (v : fvec A) (n : nat) (x : arg A) : outcome (fvec A) :=
  let t := resolve has v x in
  if IsUsingFallback has v then
    o <- (if length (fallback v) <? n then fetch v t else Done None) ;; Done (FV (m_size v) (m_data v) (vresize (fallback v) n o))
  else if has && (cap <? n) then
    v <- rMoveStorageToFallback v ;;
    o <- (if length (fallback v) <? n then fetch v t else Done None) ;; Done (FV (m_size v) (m_data v) (vresize (fallback v) n o))
  else
    if count v <? n then
      m <- foreach (range (count v) n) (fun m i => o <- fetch (FV (m_size v) m (fallback v)) t ;; construct m i o) (m_data v) ;;
      Done (FV (Count n) m (fallback v))
    else if n <? count v then
      m <- destroy_range (m_data v) n (count v) ;; Done (FV (Count n) m (fallback v))
    else Done v.

Definition rv_resize (v : fvec A) (n : nat) : outcome (fvec A) := rv_resize_with v n (ByCopy dflt).

(** reserve 623-638 *)
Definition rv_reserve (v : fvec A) (n : nat) : outcome (fvec A) :=
  if has then
    if n <=? cap then Done v
    else if negb (IsUsingFallback has v) then rMoveStorageToFallback v
    else Done v
  else Done v.

(** erase(pos) 429-444; past the end, std::vector::erase is undefined and the range given to std::move is not one *)
Definition rv_erase (v : fvec A) (pos : nat) : outcome (fvec A * nat) :=
  let index := pos in
  if IsUsingFallback has v then
    require (index <? length (fallback v)) ;;;
    Done (FV (m_size v) (m_data v) (firstn index (fallback v) ++ skipn (index + 1) (fallback v)), index)
  else
    require (index + 1 <=? count v) ;;;
    m <- move_forward (m_data v) (index + 1) (count v - (index + 1)) index ;;
    v <- rv_pop_back (FV (m_size v) m (fallback v)) ;;
    Done (v, index).

(** erase(first, last) 447-473; an invalid range given to std::vector::erase or to std::move is undefined *)
Definition rv_erase_range (v : fvec A) (first last : nat) : outcome (fvec A * nat) :=
  if IsUsingFallback has v then
    require ((first <=? last) && (last <=? length (fallback v))) ;;;
    Done (FV (m_size v) (m_data v) (firstn first (fallback v) ++ skipn last (fallback v)), first)
  else
    let index := first in
    if first =? last then Done (v, index)
    else
      require ((first <? last) && (last <=? count v)) ;;;
      let n := last - first in
      m <- move_forward (m_data v) (index + n) (count v - (index + n)) index ;;
      v <- rv_resize (FV (m_size v) m (fallback v)) (fv_size has v - n) ;;
      Done (v, index).

(** FixedVector(size, value) 189-193, FixedVector(first, last) and initializer_list 197-208 *)
Definition rv_new_size (n : nat) (a : A) : outcome (fvec A) := rv_resize_with (fv_new cap) n (ByCopy a).

Definition rv_new_list (l : list A) : outcome (fvec A) :=
  foreach (seq 0 (length l)) (fun v i => ' (v, _) <- rv_emplace_back v (ByCopy (nth i l dflt)) ;; Done v) (fv_new cap).

(** A copy or moved value pushed by the copy and move members: the value may be that of a moved-from object. *)
Definition r_push_value (v : fvec A) (o : option A) : outcome (fvec A * bool) :=
  ' (v, spilled) <- rCheckFallbackOnGrow v ;;
  if spilled : bool then Done (FV (m_size v) (m_data v) (fallback v ++ [o]), true)
  else
    m <- construct (m_data v) (count v) o ;; Done (FV (Count (count v + 1)) m (fallback v), false).

(** FixedVector(const FixedVector&) 211-222 *)
Definition rv_copy (src : fvec A) : outcome (fvec A) :=
  let v := FV (Count 0) (repeat Raw cap) (fallback src) in
  if negb (IsUsingFallback has src) then
    foreach (range 0 (fv_size has src)) (fun v i => o <- rv_at src i ;; ' (v, _) <- r_push_value v o ;; Done v) v
  else Done (FV FallbackInUse (repeat Raw cap) (fallback src)).

(** FixedVector(FixedVector&&) 225-236: the new vector and the moved-from one. A moved-from std::vector is empty. *)
Definition rv_move (src : fvec A) : outcome (fvec A * fvec A) :=
  let v := FV (Count 0) (repeat Raw cap) (fallback src) in
  let src := FV (m_size src) (m_data src) [] in
  if negb (IsUsingFallback has src) then
    foreach (range 0 (fv_size has src))
      (fun '(v, src) i =>
        ' (o, m) <- take (m_data src) i ;; ' (v, _) <- r_push_value v o ;; Done (v, FV (m_size src) m (fallback src))) (v, src)
  else Done (FV FallbackInUse (repeat Raw cap) (fallback v), src).

(** operator=(const FixedVector&) 692-710. Target and source are designated by their place in a list of vectors, so that they can be the same. *)
Definition rv_assign (st : list (fvec A)) (d s : nat) : outcome (list (fvec A)) :=
  src <- vget st s ;;
  dst <- vget st d ;;
  if IsUsingFallback has src then vset st d (FV (m_size src) (m_data dst) (fallback src))
  else
    dst <- fv_clear has dst ;;
    st <- vset st d dst ;;
    src <- vget st s ;;
    dst <- vget st d ;;
    dst <- rv_reserve dst (fv_size has src) ;;
    st <- vset st d dst ;;
    src <- vget st s ;;
    foreach (range 0 (fv_size has src))
      (fun st i => src <- vget st s ;; dst <- vget st d ;; o <- rv_at src i ;; ' (dst, _) <- r_push_value dst o ;; vset st d dst) st.

(** operator=(FixedVector&&) 713-732. Move-assigning a std::vector empties the source; onto itself it is left empty
    (libstdc++; the standard only says valid but unspecified). Pushed to a fallback, the elements are copied (529) and keep their value. *)
Definition rv_move_assign (st : list (fvec A)) (d s : nat) : outcome (list (fvec A)) :=
  st <- (if has then
           src <- vget st s ;;
           dst <- vget st d ;;
           st <- vset st d (FV (m_size dst) (m_data dst) (fallback src)) ;;
           src <- vget st s ;;
           vset st s (FV (m_size src) (m_data src) [])
         else Done st) ;;
  src <- vget st s ;;
  dst <- vget st d ;;
  if IsUsingFallback has src then vset st d (FV (m_size src) (m_data dst) (fallback dst))
  else
    dst <- fv_clear has dst ;;
    st <- vset st d dst ;;
    src <- vget st s ;;
    dst <- vget st d ;;
    dst <- rv_reserve dst (fv_size has src) ;;
    st <- vset st d dst ;;
    src <- vget st s ;;
    foreach (range 0 (fv_size has src))
      (fun st i =>
        src <- vget st s ;;
        dst <- vget st d ;;
        o <- read (m_data src) i ;;
        ' (dst, copied) <- r_push_value dst o ;;
        st <- vset st d dst ;;
        src <- vget st s ;;
        m <- (if copied : bool then Done (m_data src) else ' (_, m) <- take (m_data src) i ;; Done m) ;;
        vset st s (FV (m_size src) m (fallback src))) st.
End Release.


(** One operation, and a history of operations, on the model. *)
Definition rv_apply {A} has cap (dflt : A) (v : fvec A) (o : vop A) : outcome (fvec A * option nat) :=
  match o with
  | PushCopy a => ' (v, _) <- rv_push_back has cap v (ByCopy a) ;; Done (v, None)
  | PushMove a => ' (v, _) <- rv_push_back has cap v (ByMove a) ;; Done (v, None)
  | EmplaceBack a => ' (v, _) <- rv_emplace_back has cap v (ByCopy a) ;; Done (v, None)
  | Insert i a => ' (v, r, _) <- rv_insert has cap v i (ByCopy a) ;; Done (v, Some r)
  | InsertMove i a => ' (v, r, _) <- rv_insert has cap v i (ByMove a) ;; Done (v, Some r)
  | Erase i => ' (v, r) <- rv_erase has v i ;; Done (v, Some r)
  | EraseRange i j => ' (v, r) <- rv_erase_range has cap dflt v i j ;; Done (v, Some r)
  | PopBack => v <- rv_pop_back has v ;; Done (v, None)
  | Resize n => v <- rv_resize has cap dflt v n ;; Done (v, None)
  | ResizeWith n a => v <- rv_resize_with has cap v n (ByCopy a) ;; Done (v, None)
  | Reserve n => v <- rv_reserve has cap v n ;; Done (v, None)
  | Clear => v <- fv_clear has v ;; Done (v, None)
  | SetAt i a => v <- rv_set has v i a ;; Done (v, None)
  end.

Fixpoint rv_run {A} has cap (dflt : A) (v : fvec A) (ops : list (vop A)) : outcome (fvec A * list (option nat)) :=
  match ops with
  | [] => Done (v, [])
  | o :: ops => ' (v, r) <- rv_apply has cap dflt v o ;; ' (v, rs) <- rv_run has cap dflt v ops ;; Done (v, r :: rs)
  end.
