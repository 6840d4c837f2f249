(** Specification of a pool whose entries may be given back once too often: rows of slots, each row with the number of returns too many ([pop] and [slot] of PoolSpec). *)
From Verif Require Import Base PoolSpec.
Open Scope nat_scope.

Notation row A := (list (slot A) * nat)%type.
Section Excess.
Context {A : Type}.
(** What the pool believes about a row: the entries held less the returns too many. *)
Definition believed (x : row A) : nat := sp_count (fst x) - snd x.

(** Handing out a slot: the first row that is believed not to be full decides. *)
Fixpoint ex_take (n : nat) (l : list (row A)) (x : slot A) (j : nat) : outcome (list (row A) * nat) :=
  match l with
  | [] => Done ([(x :: repeat Vacant (n - 1), 0)], j * n)
  | (s, d) :: r =>
    if believed (s, d) =? n then ' (r', i) <- ex_take n r x (S j) ;; Done ((s, d) :: r', i)
    else match first_vacant s with Some k => Done ((upd s k x, d) :: r, j * n + k) | None => Fault FAssert end
  end.
Definition ex_slot (n : nat) (l : list (row A)) (i : nat) : option (slot A) := match nth_error l (i / n) with Some (s, _) => nth_error s (i mod n) | None => None end.
Definition ex_put (n : nat) (l : list (row A)) (i : nat) (x : slot A) (more : nat) : list (row A) :=
  match nth_error l (i / n) with Some (s, d) => upd l (i / n) (upd s (i mod n) x, more + d) | None => l end.
Definition ex_believed (n : nat) (l : list (row A)) (i : nat) : nat := match nth_error l (i / n) with Some x => believed x | None => 0 end.

(** As [sp_apply], but an entry that is not held may be given back with NoDestruction: refused when its row is believed empty, otherwise one return too many.
    FUB: the contract is broken in another way. *)
Definition ex_apply (n : nat) (l : list (row A)) (o : pop A) : outcome (list (row A) * option nat) :=
  match o with
  | PAlloc a _ => ' (l, i) <- ex_take n l (Live a) 0 ;; Done (l, Some i)
  | PDefer _ => ' (l, i) <- ex_take n l Deferred 0 ;; Done (l, Some i)
  | PConstruct i a => match ex_slot n l i with Some Deferred => Done (ex_put n l i (Live a) 0, None) | _ => Fault FUB end
  | PDestroy i => match ex_slot n l i with Some (Live _) => Done (ex_put n l i Deferred 0, None) | _ => Fault FUB end
  | PFree i =>
    match ex_slot n l i with
    | Some (Live _) => if ex_believed n l i =? 0 then Fault FAssert else Done (ex_put n l i Vacant 0, None)
    | Some Deferred => Fault FUB
    | _ => Fault FAssert
    end
  | PFreeNoDestruction i =>
    match ex_slot n l i with
    | Some Deferred => if ex_believed n l i =? 0 then Fault FAssert else Done (ex_put n l i Vacant 0, None)
    | Some Vacant => if ex_believed n l i =? 0 then Fault FAssert else Done (ex_put n l i Vacant 1, None)
    | _ => Fault FUB
    end
  | PClear => if forallb (fun x => (believed x =? 0) || sp_settled (fst x)) l then Done ([], None) else Fault FUB
  end.
Fixpoint ex_run (n : nat) (l : list (row A)) (ops : list (pop A)) : outcome (list (row A) * list (option nat)) :=
  match ops with
  | [] => Done (l, [])
  | o :: ops => ' (l, r) <- ex_apply n l o ;; ' (l, rs) <- ex_run n l ops ;; Done (l, r :: rs)
  end.
(** All the returns too many; the entries held. *)
Definition ex_excess (l : list (row A)) : nat := list_sum (map snd l).
Definition ex_held (l : list (row A)) : nat := list_sum (map (fun x => sp_count (fst x)) l).
End Excess.
