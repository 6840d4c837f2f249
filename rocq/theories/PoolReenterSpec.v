(** Calls that nest, on the slots of a pool. *)
From Verif Require Import Base PoolSpec PoolReenterModel.
Open Scope nat_scope.

Section Spec.
Context {A : Type}.
Variables (bs : nat) (ctor dtor : A -> list (call A)).
(** A slot holds no object while its constructor or destructor runs. *)
Definition sp_one (rec : list (call A) -> list (slot A) -> outcome (list (slot A))) (c : call A) (l : list (slot A)) : outcome (list (slot A)) :=
  match c with
  | CAlloc a _ => let (l, i) := sp_take bs l Deferred in l <- rec (ctor a) l ;; Done (upd l i (Live a))
  | CFree i =>
    match nth_error l i with
    | Some (Live a) => l <- rec (dtor a) (upd l i Deferred) ;; Done (upd l i Vacant)
    | Some Deferred => Fault FUB
    | _ => Fault FAssert
    end
  end.
Fixpoint sp_all (f : call A -> list (slot A) -> outcome (list (slot A))) (cs : list (call A)) (l : list (slot A)) : outcome (list (slot A)) :=
  match cs with [] => Done l | c :: cs => l <- f c l ;; sp_all f cs l end.
Fixpoint sp_exec (depth : nat) (cs : list (call A)) (l : list (slot A)) : outcome (list (slot A)) :=
  match depth with O => Fault FDiverge | S depth => sp_all (sp_one (sp_exec depth)) cs l end.

(** Destroying what the slots hold, one after another, without freeing them. *)
Definition sp_wipe (depth : nat) (i : nat) (l : list (slot A)) : outcome (list (slot A)) :=
  match nth_error l i with Some (Live a) => sp_exec depth (dtor a) (upd l i Deferred) | Some Deferred => Fault FUB | _ => Done l end.
Fixpoint sp_reset (depth : nat) (is : list nat) (l : list (slot A)) : outcome (list (slot A)) := match is with [] => Done l | i :: is => l <- sp_wipe depth i l ;; sp_reset depth is l end.

(** [tree l i T]: the object of slot [i] frees its children, they free theirs, ...; [T] are the slots of all of them. [trees]: a list of such. *)
Inductive tree (l : list (slot A)) : nat -> list nat -> Prop :=
| Node i a kids T : nth_error l i = Some (Live a) -> dtor a = map CFree kids -> trees l kids T -> tree l i (i :: T)
with trees (l : list (slot A)) : list nat -> list nat -> Prop :=
| Trees_nil : trees l [] []
| Trees_cons i is T U : tree l i T -> trees l is U -> trees l (i :: is) (T ++ U).
(** [l'] is [l] with the slots of [T] vacant. *)
Definition vacated (l : list (slot A)) (T : list nat) (l' : list (slot A)) : Prop :=
  length l' = length l /\ forall j, (In j T -> nth_error l' j = Some Vacant) /\ (~ In j T -> nth_error l' j = nth_error l j).
(** Every object of the pool is part of one tree. *)
Definition forest (l : list (slot A)) (F : list (nat * list nat)) : Prop :=
  Forall (fun '(r, T) => tree l r T) F /\ NoDup (concat (map snd F)) /\ forall j a, nth_error l j = Some (Live a) -> In j (concat (map snd F)).
(** Owners come before what they own. *)
Definition upward (l : list (slot A)) : Prop := forall j a k, nth_error l j = Some (Live a) -> In (CFree k) (dtor a) -> j < k.
(** The destructors of the objects only free. *)
Definition frees (c : call A) : Prop := match c with CFree _ => True | CAlloc _ _ => False end.
Definition freeing (l : list (slot A)) : Prop := forall j a, nth_error l j = Some (Live a) -> Forall frees (dtor a).
End Spec.
