(** Model of include/NazaraUtils/PrivateImpl.hpp and PrivateImpl.inl.
    Any number of PrivateImpl objects ("handles") live together. [t] tells whether the constructor or the assignment of T run by the operation
    throws (or its allocation); an operation then returns [Thrown] with what it leaves behind.
    A handle is [None] once its lifetime has ended. *)
From Verif Require Import Base MovableModel.

Inductive ending := Normal | Thrown.

(** ** PrivateImpl<T, 0>: the object is on the heap (PrivateImpl.inl 110-243) *)
Section Heap.
  (** [assignable] is std::is_copy_assignable_v<T>; a copy assignment of T that throws leaves [broken this source] in its target. *)
  Context {T : Type} (assignable : bool) (broken : T -> T -> T).
  (** A heap cell is [None] once its object has been destroyed; addresses are not reused. *)
  Record state := mkState { heap : list (option T); handles : list (option (option nat)) }.

  Definition live (s : state) (h : nat) : outcome (option nat) :=
    match nth_error (handles s) h with Some (Some p) => Done p | _ => Fault FUB end.
  Definition set_handle (s : state) (h : nat) (x : option (option nat)) : state := mkState (heap s) (upd (handles s) h x).
  (** [*p] *)
  Definition deref (s : state) (p : option nat) : outcome T :=
    match p with
    | None => Fault FUB
    | Some a => match nth_error (heap s) a with Some (Some v) => Done v | _ => Fault FUB end
    end.
  (** [delete p] *)
  Definition delete (s : state) (p : option nat) : outcome state :=
    match p with
    | None => Done s
    | Some a => deref s p ;;; Done (mkState (upd (heap s) a None) (handles s))
    end.
  (** [new T(v)]: the state and the address *)
  Definition new (s : state) (v : T) : state * nat := (mkState (heap s ++ [Some v]) (handles s), length (heap s)).
  Definition push (s : state) (p : option nat) : state := mkState (heap s) (handles s ++ [Some p]).

  (** 111-114 *)
  Definition NewNull (s : state) : outcome (state * ending) := Done (push s None, Normal).
  (** 117-120, given [new T(v)] *)
  Definition NewPtr (v : T) (s : state) : outcome (state * ending) := let '(s1, p) := new s v in Done (push s1 (ptr_of_value (Some p)), Normal).
  (** 122-128: m_ptr is built null, then assigned. *)
  Definition New (v : T) (t : bool) (s : state) : outcome (state * ending) :=
    if t then Done (s, Thrown) else let '(s1, p) := new s v in Done (push s1 (ptr_assign_value None (Some p)), Normal).
  (** 130-135 *)
  Definition Copy (k : nat) (t : bool) (s : state) : outcome (state * ending) :=
    q <- live s k ;; v <- deref s q ;; New v t s.
  (** PrivateImpl.hpp 55: defaulted *)
  Definition Move (k : nat) (s : state) : outcome (state * ending) :=
    q <- live s k ;; let '(p, q') := ptr_move_construct q in Done (push (set_handle s k (Some q')) p, Normal).
  (** 138-141 *)
  Definition Destroy (h : nat) (s : state) : outcome (state * ending) :=
    p <- live s h ;; s1 <- delete s p ;; Done (set_handle s1 h None, Normal).
  (** 144-152 *)
  Definition Emplace (h : nat) (v : T) (t : bool) (s : state) : outcome (state * ending) :=
    p <- live s h ;; assert (match p with None => true | Some _ => false end) ;;;
    if t then Done (s, Thrown) else let '(s1, a) := new s v in Done (set_handle s1 h (Some (ptr_assign_value p (Some a))), Normal).
  (** 173-179 *)
  Definition Reset (h : nat) (s : state) : outcome (state * ending) :=
    p <- live s h ;; s1 <- delete s p ;; Done (set_handle s1 h (Some (ptr_assign_value p None)), Normal).
  (** 154-171, 181-220: Get, HasValue and the conversions *)
  Definition Get (h : nat) (s : state) : outcome (option nat) := p <- live s h ;; Done (ptr_get p).
  Definition HasValue (h : nat) (s : state) : outcome bool := p <- live s h ;; Done (match p with None => false | Some _ => true end).
  Definition Deref (h : nat) (s : state) : outcome T := p <- Get h s ;; deref s p.
  (** 223-242. [q] is read again after the delete: [pimpl] is a reference. *)
  Definition AssignCopy (h k : nat) (t : bool) (s : state) : outcome (state * ending) :=
    p <- live s h ;; _ <- live s k ;;
    if assignable then
      match p with
      | Some a =>
        x <- deref s p ;; v <- Deref k s ;;
        Done (mkState (upd (heap s) a (Some (if t then broken x v else v))) (handles s), if t then Thrown else Normal)
      | None =>
        v <- Deref k s ;;
        if t then Done (s, Thrown) else let '(s1, a) := new s v in Done (set_handle s1 h (Some (ptr_assign_value p (Some a))), Normal)
      end
    else
      s1 <- delete s p ;; v <- Deref k s1 ;;
      if t then Done (s1, Thrown) else let '(s2, a) := new s1 v in Done (set_handle s2 h (Some (ptr_assign_value p (Some a))), Normal).
  (** PrivateImpl.hpp 79: defaulted *)
  Definition AssignMove (h k : nat) (s : state) : outcome (state * ending) :=
    p <- live s h ;; q <- live s k ;;
    let '(p', q') := ptr_move_assign p q in Done (set_handle (set_handle s k (Some q')) h (Some p'), Normal).

  Inductive op :=
  | ONewNull | ONewPtr (v : T) | ONew (v : T) (t : bool) | OCopy (k : nat) (t : bool) | OMove (k : nat) | ODestroy (h : nat)
  | OEmplace (h : nat) (v : T) (t : bool) | OReset (h : nat) | OAssignCopy (h k : nat) (t : bool) | OAssignMove (h k : nat).
  Definition step (o : op) (s : state) : outcome (state * ending) :=
    match o with
    | ONewNull => NewNull s | ONewPtr v => NewPtr v s | ONew v t => New v t s | OCopy k t => Copy k t s | OMove k => Move k s
    | ODestroy h => Destroy h s | OEmplace h v t => Emplace h v t s | OReset h => Reset h s
    | OAssignCopy h k t => AssignCopy h k t s | OAssignMove h k => AssignMove h k s
    end.
End Heap.
Arguments state T : clear implicits.
Arguments op T : clear implicits.

(** ** PrivateImpl<T, BufferSize>: the object is inside (PrivateImpl.inl 13-107) *)
Section Buffer.
  (** Moving out of a T holding [x] leaves [moved x]. *)
  Context {T : Type} (moved : T -> T).
  (** A handle whose lifetime has not ended contains [Some (Some v)], or [Some None] after its object was destroyed. *)
  Definition bstate := list (option (option T)).
  Definition blive (s : bstate) (h : nat) : outcome (option T) := match nth_error s h with Some (Some c) => Done c | _ => Fault FUB end.
  (** [*Get()] *)
  Definition bderef (s : bstate) (h : nat) : outcome T := c <- blive s h ;; match c with Some v => Done v | None => Fault FUB end.
  (** [PlacementDestroy(Get())] *)
  Definition bdestroy_object (s : bstate) (h : nat) : outcome bstate := bderef s h ;;; Done (upd s h (Some None)).
  (** 12-17 *)
  Definition BNew (v : T) (t : bool) (s : bstate) : outcome (bstate * ending) := if t then Done (s, Thrown) else Done (s ++ [Some (Some v)], Normal).
  (** 19-23 *)
  Definition BCopy (k : nat) (t : bool) (s : bstate) : outcome (bstate * ending) := v <- bderef s k ;; BNew v t s.
  (** 25-29, noexcept *)
  Definition BMove (k : nat) (t : bool) (s : bstate) : outcome (bstate * ending) :=
    v <- bderef s k ;; if t then Fault FTerminate else Done (upd s k (Some (Some (moved v))) ++ [Some (Some v)], Normal).
  (** 31-35 *)
  Definition BDestroy (h : nat) (s : bstate) : outcome (bstate * ending) := s1 <- bdestroy_object s h ;; Done (upd s1 h None, Normal).
  (** 91-98 *)
  Definition BAssignCopy (h k : nat) (t : bool) (s : bstate) : outcome (bstate * ending) :=
    s1 <- bdestroy_object s h ;; v <- bderef s1 k ;; if t then Done (s1, Thrown) else Done (upd s1 h (Some (Some v)), Normal).
  (** 100-107, noexcept *)
  Definition BAssignMove (h k : nat) (t : bool) (s : bstate) : outcome (bstate * ending) :=
    s1 <- bdestroy_object s h ;; v <- bderef s1 k ;;
    if t then Fault FTerminate else Done (upd (upd s1 k (Some (Some (moved v)))) h (Some (Some v)), Normal).

  Inductive bop := BONew (v : T) (t : bool) | BOCopy (k : nat) (t : bool) | BOMove (k : nat) (t : bool) | BODestroy (h : nat)
    | BOAssignCopy (h k : nat) (t : bool) | BOAssignMove (h k : nat) (t : bool).
  Definition bstep (o : bop) (s : bstate) : outcome (bstate * ending) :=
    match o with
    | BONew v t => BNew v t s | BOCopy k t => BCopy k t s | BOMove k t => BMove k t s | BODestroy h => BDestroy h s
    | BOAssignCopy h k t => BAssignCopy h k t s | BOAssignMove h k t => BAssignMove h k t s
    end.
End Buffer.
Arguments bstate T : clear implicits.
Arguments bop T : clear implicits.
