(** * Handles whose objects use handles while they are constructed and destroyed

    [PrivateImpl<T, 0>] (PrivateImpl.hpp:44-90, PrivateImpl.inl:110-243) when the constructor and
    the destructor of [T] call [Emplace], [Reset] and the accessors of handles, possibly of the one
    they are being put into or removed from.

    Simplifications.  Constructors do not throw (see PimplModel.v for those that do).  Handles are
    not copied or moved here (see PimplModel.v).  Addresses are not reused.  Assertions are enabled.
    An access checks [HasValue] first, as [if (handle) handle->f();] does. *)

From Coq Require Import List Arith Bool.
Import ListNotations.
From Verif Require Import Base.

(** What [m_ptr] is; [Gone] once the lifetime of the handle has ended. *)
Inductive slot := Empty | Holds (i : nat) | Gone.

Inductive status := Constructing | Alive | Destroying | Dead.

(** Objects are numbered in the order of their creation, below [next]; [home] is the handle that
    created one. *)
Record state := mkState
  { slots : nat -> slot; next : nat; home : nat -> nat; status_of : nat -> status }.

Definition put {A} (f : nat -> A) (k : nat) (v : A) : nat -> A :=
  fun x => if x =? k then v else f x.

Definition set_slot (s : state) (h : nat) (x : slot) : state :=
  mkState (put (slots s) h x) (next s) (home s) (status_of s).
Definition set_status (s : state) (i : nat) (x : status) : state :=
  mkState (slots s) (next s) (home s) (put (status_of s) i x).
(** [new T]: memory is there, the constructor has not run. *)
Definition allocate (s : state) (h : nat) : state :=
  mkState (slots s) (S (next s)) (put (home s) (next s) h) (put (status_of s) (next s) Constructing).

Inductive op := Emplace (h : nat) | Reset (h : nat) | Use (h : nat) | End (h : nat).

Section Exec.
  (** What the constructor and the destructor of an object do, given its handle and its number. *)
  Variables ctor dtor : nat -> nat -> list op.

  Section Run.
    Variable one : op -> state -> outcome state.
    Fixpoint run (l : list op) (s : state) : outcome state :=
      match l with
      | [] => Done s
      | o :: l => s1 <- one o s ;; run l s1
      end.

    (** [delete m_ptr] *)
    Definition delete (h : nat) (s : state) : outcome state :=
      match slots s h with
      | Gone => Fault FUB
      | Empty => Done s
      | Holds i =>
          match status_of s i with
          | Alive =>
              s1 <- run (dtor (home s i) i) (set_status s i Destroying) ;;
              Done (set_status s1 i Dead)
          | _ => Fault FUB
          end
      end.
  End Run.

  Fixpoint exec (fuel : nat) (o : op) (s : state) : outcome state :=
    match fuel with
    | O => Fault FDiverge
    | S fuel =>
        match o with
        (* 144-152: [m_ptr] is assigned after the constructor has run *)
        | Emplace h =>
            match slots s h with
            | Gone => Fault FUB
            | Holds _ => Fault FAssert
            | Empty =>
                let i := next s in
                s1 <- run (exec fuel) (ctor h i) (allocate s h) ;;
                Done (set_slot (set_status s1 i Alive) h (Holds i))
            end
        (* 173-179: [m_ptr] is cleared after the destructor has run *)
        | Reset h =>
            s1 <- delete (exec fuel) h s ;; Done (set_slot s1 h Empty)
        (* 154-171 and 187-215 *)
        | Use h =>
            match slots s h with
            | Gone => Fault FUB
            | Empty => Done s
            | Holds i => match status_of s i with Dead => Fault FUB | _ => Done s end
            end
        (* 138-141 *)
        | End h =>
            s1 <- delete (exec fuel) h s ;; Done (set_slot s1 h Gone)
        end
    end.

  Definition exec_all (fuel : nat) : list op -> state -> outcome state := run (exec fuel).
End Exec.

(** All handles null, no object. *)
Definition fresh : state := mkState (fun _ => Empty) 0 (fun _ => 0) (fun _ => Dead).

(** The end of the scope of handles 0 to [n - 1]: the last one declared ends first. *)
Fixpoint scope_end (n : nat) : list op :=
  match n with O => [] | S n => End n :: scope_end n end.
