(** Specification of a pool: a growing row of slots, each free or held; a held slot contains an object or not. *)
From Verif Require Import Base.
Open Scope nat_scope.

Inductive slot A := Vacant | Deferred | Live (a : A).
Arguments Vacant {A}. Arguments Deferred {A}. Arguments Live {A}.
Definition vacant {A} (s : slot A) : bool := match s with Vacant => true | _ => false end.
Definition held {A} (s : slot A) : bool := negb (vacant s).

(** The position of the first vacant slot. *)
Fixpoint first_vacant {A} (l : list (slot A)) : option nat :=
  match l with
  | [] => None
  | s :: r => if vacant s then Some 0 else option_map S (first_vacant r)
  end.

(** Handing out a slot: the first vacant one, or the first of [n] new ones. *)
Definition sp_take {A} (n : nat) (l : list (slot A)) (s : slot A) : list (slot A) * nat :=
  match first_vacant l with
  | Some i => (upd l i s, i)
  | None => (l ++ s :: repeat Vacant (n - 1), length l)
  end.

Definition sp_live {A} (l : list (slot A)) (i : nat) : option A := match nth_error l i with Some (Live a) => Some a | _ => None end.
(** Held indices, in increasing order. *)
Definition sp_indices {A} (l : list (slot A)) : list nat := filter (fun i => held (nth i l Vacant)) (seq 0 (length l)).
Definition sp_count {A} (l : list (slot A)) : nat := length (filter held l).
(** No slot is held without an object. *)
Definition sp_settled {A} (l : list (slot A)) : bool := forallb (fun s => match s with Deferred => false | _ => true end) l.

(** A history. Operations that may need a block carry the address the allocator would give. *)
Inductive pop A :=
| PAlloc (a : A) (at_ : N) | PDefer (at_ : N) | PConstruct (i : nat) (a : A) | PDestroy (i : nat) | PFree (i : nat) | PFreeNoDestruction (i : nat) | PClear.
Arguments PAlloc {A}. Arguments PDefer {A}. Arguments PConstruct {A}. Arguments PDestroy {A}. Arguments PFree {A}. Arguments PFreeNoDestruction {A}. Arguments PClear {A}.

(** What an operation does to the slots, with the index handed out. FUB: the user breaks the contract (an object constructed or destroyed twice, an entry freed without its
    object, or given back unchecked while not held). FAssert: the pool refuses. *)
Definition sp_apply {A} (n : nat) (l : list (slot A)) (o : pop A) : outcome (list (slot A) * option nat) :=
  match o with
  | PAlloc a _ => let (l, i) := sp_take n l (Live a) in Done (l, Some i)
  | PDefer _ => let (l, i) := sp_take n l Deferred in Done (l, Some i)
  | PConstruct i a => match nth_error l i with Some Deferred => Done (upd l i (Live a), None) | _ => Fault FUB end
  | PDestroy i => match nth_error l i with Some (Live _) => Done (upd l i Deferred, None) | _ => Fault FUB end
  | PFree i => match nth_error l i with Some (Live _) => Done (upd l i Vacant, None) | Some Deferred => Fault FUB | _ => Fault FAssert end
  | PFreeNoDestruction i => match nth_error l i with Some Deferred => Done (upd l i Vacant, None) | _ => Fault FUB end
  | PClear => if sp_settled l then Done ([], None) else Fault FUB
  end.
Fixpoint sp_run {A} (n : nat) (l : list (slot A)) (ops : list (pop A)) : outcome (list (slot A) * list (option nat)) :=
  match ops with
  | [] => Done (l, [])
  | o :: ops => ' (l, r) <- sp_apply n l o ;; ' (l, rs) <- sp_run n l ops ;; Done (l, r :: rs)
  end.
