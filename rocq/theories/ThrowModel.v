(** Model of FixedVector (FixedVector.inl) and StackVector (StackVector.inl) when the members of T may throw; PlacementNew of MemoryHelper.inl 25-28.
    Which call throws is decided by a counter: that many constructions, moves and allocations still succeed, the next one throws. Quantifying over the
    counter covers every place an exception can come from. Destructors do not throw.
    The two classes share the code modelled here (m_data or m_ptr, Capacity or m_capacity); the size is that of the inline storage.
    Simplifications: the element passed to emplace and push_back is an object outside the vector; a move that throws leaves both objects alive with an
    unspecified value; the fallback of HybridVector is a std::vector with the guarantees of [vector.modifiers]. *)
From Verif Require Export CellModel.

(** The inline storage, m_size, and the number of operations that will still succeed. *)
Record tst (A : Type) := TS { t_cells : list (cell A); t_size : nat; t_left : nat }.
Arguments TS {A}.
Arguments t_cells {A}.
Arguments t_size {A}.
Arguments t_left {A}.

(** A call returns, leaves by an exception, or is undefined / stopped by an assertion. *)
Inductive eff (S B : Type) := Val (b : B) (s : S) | Thrown (s : S) | Bad (f : fault).
Arguments Val {S B}.
Arguments Thrown {S B}.
Arguments Bad {S B}.

Definition tbind {S B C} (e : eff S B) (k : B -> S -> eff S C) : eff S C :=
  match e with Val b s => k b s | Thrown s => Thrown s | Bad f => Bad f end.
Definition tassert {S B} (b : bool) (k : eff S B) : eff S B := if b then k else Bad FAssert.

Fixpoint tloop {S} (l : list nat) (f : nat -> S -> eff S unit) (s : S) : eff S unit :=
  match l with
  | [] => Val tt s
  | i :: l => tbind (f i s) (fun _ s => tloop l f s)
  end.

Section Throwing.
Context {A : Type}.
(** T's move constructor and move assignment never throw. *)
Variable nm : bool.

(** A step that cannot throw. *)
Definition tpure (s : tst A) (e : outcome (list (cell A))) : eff (tst A) unit :=
  match e with Done m => Val tt (TS m (t_size s) (t_left s)) | Fault f => Bad f end.

(** PlacementNew(data(i), args...) *)
Definition t_construct (i : nat) (a : A) (s : tst A) : eff (tst A) unit :=
  match construct (t_cells s) i (Some a), t_left s with
  | Fault f, _ => Bad f
  | Done _, O => Thrown s
  | Done m, S k => Val tt (TS m (t_size s) k)
  end.

(** PlacementNew(data(dst), std::move( *data(src))) *)
Definition t_move_construct (src dst : nat) (s : tst A) : eff (tst A) unit :=
  match take (t_cells s) src with
  | Fault f => Bad f
  | Done (o, m) =>
    match construct m dst o with
    | Fault f => Bad f
    | Done m' =>
      if nm then Val tt (TS m' (t_size s) (t_left s))
      else match t_left s with O => Thrown (TS m (t_size s) 0) | S k => Val tt (TS m' (t_size s) k) end
    end
  end.

(** *data(dst) = std::move( *data(src)) *)
Definition t_move_assign (src dst : nat) (s : tst A) : eff (tst A) unit :=
  match take (t_cells s) src with
  | Fault f => Bad f
  | Done (o, m) =>
    match assign m dst (if nm then o else match t_left s with O => None | S _ => o end) with
    | Fault f => Bad f
    | Done m' =>
      if nm then Val tt (TS m' (t_size s) (t_left s))
      else match t_left s with O => Thrown (TS m' (t_size s) 0) | S k => Val tt (TS m' (t_size s) k) end
    end
  end.

(** PlacementDestroy(data(i)) *)
Definition t_destroy (i : nat) (s : tst A) : eff (tst A) unit := tpure s (destroy (t_cells s) i).

Definition set_size (n : nat) (s : tst A) : tst A := TS (t_cells s) n (t_left s).

(** emplace, FixedVector.inl 363-388 and StackVector.inl 120-139: m_size++ comes before the construction. *)
Definition t_emplace (pos : nat) (a : A) (s : tst A) : eff (tst A) nat :=
  tassert (pos <=? t_size s) (tassert (t_size s <? length (t_cells s))
  (let n := t_size s in
   tbind (if pos <? n then
            tbind (t_move_construct (n - 1) n s) (fun _ s =>
            tbind (if pos <? n - 1 then tloop (rev (seq 0 (n - 1 - pos))) (fun k => t_move_assign (pos + k) (pos + 1 + k)) s else Val tt s) (fun _ s =>
            t_destroy pos s))
          else Val tt s) (fun _ s =>
   tbind (t_construct pos a (set_size (n + 1) s)) (fun _ s => Val pos s)))).

(** emplace_back and push_back, FixedVector.inl 392-402, 511-534 and StackVector.inl 143-147, 230-241: data(m_size++) is computed before the construction. *)
Definition t_push (a : A) (s : tst A) : eff (tst A) unit :=
  tassert (t_size s <? length (t_cells s)) (t_construct (t_size s) a (set_size (t_size s + 1) s)).

(** pop_back, FixedVector.inl 537-550 and StackVector.inl 244-248 *)
Definition t_pop (s : tst A) : eff (tst A) unit :=
  tassert (negb (t_size s =? 0)) (t_destroy (t_size s - 1) (set_size (t_size s - 1) s)).

(** resize, FixedVector.inl 553-612 and StackVector.inl 251-288 *)
Definition t_resize (n : nat) (a : A) (s : tst A) : eff (tst A) unit :=
  tassert (n <=? length (t_cells s))
  (if t_size s <? n then tbind (tloop (range (t_size s) n) (fun i => t_construct i a) s) (fun _ s => Val tt (set_size n s))
   else if n <? t_size s then tbind (tloop (range n (t_size s)) t_destroy s) (fun _ s => Val tt (set_size n s))
   else Val tt s).

(** erase(pos), FixedVector.inl 429-444 and StackVector.inl 168-176 *)
Definition t_erase (pos : nat) (s : tst A) : eff (tst A) nat :=
  tassert (pos <? t_size s)
  (tbind (tloop (seq 0 (t_size s - (pos + 1))) (fun k => t_move_assign (pos + 1 + k) (pos + k)) s) (fun _ s =>
   tbind (t_pop s) (fun _ s => Val pos s))).

(** erase(first, last), FixedVector.inl 447-474 and StackVector.inl 179-195 *)
Definition t_erase_range (dflt : A) (first last : nat) (s : tst A) : eff (tst A) nat :=
  if first =? last then Val first s
  else tassert (first <? last) (tassert (last <=? t_size s)
  (tbind (tloop (seq 0 (t_size s - (first + (last - first)))) (fun k => t_move_assign (first + (last - first) + k) (first + k)) s) (fun _ s =>
   tbind (t_resize (t_size s - (last - first)) dflt s) (fun _ s => Val first s)))).

(** clear and the destructor, FixedVector.inl 239-242, 281-298, StackVector.inl 35-42, 77-80: the storage that remains. *)
Definition t_final (s : tst A) : outcome (list (cell A)) := destroy_range (t_cells s) 0 (t_size s).

(** What is left of a vector whose constructor throws. A constructor that delegates (FixedVector(size, value) 189-194, FixedVector(first, last) 196-203)
    has a complete object by then, and its destructor runs; the copy constructor 212-224 does not, and only the members are destroyed. *)
Inductive built := Built (s : tst A) | Failed (m : list (cell A)) | Broken (f : fault).

Definition t_new (cap left : nat) : tst A := TS (repeat Raw cap) 0 left.
Definition finish (e : eff (tst A) unit) : built :=
  match e with
  | Val _ s => Built s
  | Thrown s => match t_final s with Done m => Failed m | Fault f => Broken f end
  | Bad f => Broken f
  end.
Fixpoint t_push_all (l : list A) (s : tst A) : eff (tst A) unit :=
  match l with
  | [] => Val tt s
  | a :: l => tbind (t_push a s) (fun _ s => t_push_all l s)
  end.
Definition t_fill_ctor (cap left n : nat) (a : A) : built := finish (t_resize n a (t_new cap left)).
Definition t_range_ctor (cap left : nat) (l : list A) : built := finish (t_push_all l (t_new cap left)).
Definition t_copy_ctor (cap left : nat) (l : list A) : built :=
  match t_push_all l (t_new cap left) with
  | Val _ s => Built s
  | Thrown s => Failed (t_cells s)
  | Bad f => Broken f
  end.

(** ** HybridVector: leaving the inline storage *)
(** The inline part, the fallback, and whether the latter is in use. *)
Record hst := HS { h_inline : tst A; h_fallback : list (option A); h_used : bool }.

(** ReserveFallback: an allocation, which may fail *)
Definition h_reserve (h : hst) : eff hst unit :=
  match t_left (h_inline h) with
  | O => Thrown h
  | S k => Val tt (HS (TS (t_cells (h_inline h)) (t_size (h_inline h)) k) (h_fallback h) (h_used h))
  end.

(** EmplaceBackInFallback(std::move( *ptr)) then PlacementDestroy(ptr), for element i *)
Definition h_move_out (i : nat) (h : hst) : eff hst unit :=
  let s := h_inline h in
  match take (t_cells s) i with
  | Fault f => Bad f
  | Done (o, m) =>
    match destroy m i with
    | Fault f => Bad f
    | Done m' =>
      if nm then Val tt (HS (TS m' (t_size s) (t_left s)) (h_fallback h ++ [o]) (h_used h))
      else match t_left s with
           | O => Thrown (HS (TS m (t_size s) 0) (h_fallback h) (h_used h))
           | S k => Val tt (HS (TS m' (t_size s) k) (h_fallback h ++ [o]) (h_used h))
           end
    end
  end.

(** MoveStorageToFallback 764-776 *)
Definition h_spill (h : hst) : eff hst unit :=
  tassert (negb (h_used h))
  (tbind (h_reserve h) (fun _ h =>
   tbind (tloop (range 0 (t_size (h_inline h))) h_move_out h) (fun _ h =>
   Val tt (HS (h_inline h) (h_fallback h) true)))).

(** EmplaceBackInFallback(args...): std::vector's emplace_back allocates if it must and constructs; an exception leaves the vector as it was. *)
Definition h_fallback_push (a : A) (h : hst) : eff hst unit :=
  let s := h_inline h in
  match t_left s with
  | O => Thrown h
  | S k => Val tt (HS (TS (t_cells s) (t_size s) k) (h_fallback h ++ [Some a]) (h_used h))
  end.

(** emplace_back 392-402, push_back 511-521, with CheckFallbackOnGrow 735-752 *)
Definition h_push (a : A) (h : hst) : eff hst unit :=
  if h_used h then h_fallback_push a h
  else if length (t_cells (h_inline h)) <=? t_size (h_inline h) then tbind (h_spill h) (fun _ h => h_fallback_push a h)
  else match t_push a (h_inline h) with
       | Val _ s => Val tt (HS s (h_fallback h) (h_used h))
       | Thrown s => Thrown (HS s (h_fallback h) (h_used h))
       | Bad f => Bad f
       end.

(** The destructor: clear() empties the fallback if it is in use, and else destroys m_size inline elements; then the fallback is destroyed.
    The inline storage that remains. *)
Definition h_final (h : hst) : outcome (list (cell A)) := if h_used h then Done (t_cells (h_inline h)) else t_final (h_inline h).
End Throwing.
