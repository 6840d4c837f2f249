(** Specification of a pool compiled without assertions whose entries may be given back too often: rows of slots, each with the number of returns too many ([row] of PoolExcessSpec). *)
From Coq Require Export ZArith.
From Verif Require Import Base PoolSpec PoolExcessSpec.
Open Scope nat_scope.

Section Wrap.
Context {A : Type}.
(** What the pool believes about a row: the entries held less the returns too many, modulo 2^64. *)
Definition wbelieved (x : row A) : Z := ((Z.of_nat (sp_count (fst x)) - Z.of_nat (snd x)) mod 2 ^ 64)%Z.

(** Handing out a slot: the first row that is believed not to be full decides. FUB: there is none in it. *)
Fixpoint wx_take (n : nat) (l : list (row A)) (x : slot A) (j : nat) : outcome (list (row A) * nat) :=
  match l with
  | [] => Done ([(x :: repeat Vacant (n - 1), 0)], j * n)
  | (s, d) :: r =>
    if (wbelieved (s, d) =? Z.of_nat n)%Z then ' (r', i) <- wx_take n r x (S j) ;; Done ((s, d) :: r', i)
    else match first_vacant s with Some k => Done ((upd s k x, d) :: r, j * n + k) | None => Fault FUB end
  end.

(** An entry that is not held may always be given back with NoDestruction. FUB also where the contract is broken in another way. *)
Definition wx_apply (n : nat) (l : list (row A)) (o : pop A) : outcome (list (row A) * option nat) :=
  match o with
  | PAlloc a _ => ' (l, i) <- wx_take n l (Live a) 0 ;; Done (l, Some i)
  | PDefer _ => ' (l, i) <- wx_take n l Deferred 0 ;; Done (l, Some i)
  | PConstruct i a => match ex_slot n l i with Some Deferred => Done (ex_put n l i (Live a) 0, None) | _ => Fault FUB end
  | PDestroy i => match ex_slot n l i with Some (Live _) => Done (ex_put n l i Deferred 0, None) | _ => Fault FUB end
  | PFree i => match ex_slot n l i with Some (Live _) => Done (ex_put n l i Vacant 0, None) | _ => Fault FUB end
  | PFreeNoDestruction i =>
    match ex_slot n l i with
    | Some Deferred => Done (ex_put n l i Vacant 0, None)
    | Some Vacant => Done (ex_put n l i Vacant 1, None)
    | _ => Fault FUB
    end
  | PClear => if forallb (fun x => (wbelieved x =? 0)%Z || sp_settled (fst x)) l then Done ([], None) else Fault FUB
  end.
Fixpoint wx_run (n : nat) (l : list (row A)) (ops : list (pop A)) : outcome (list (row A) * list (option nat)) :=
  match ops with
  | [] => Done (l, [])
  | o :: ops => ' (l, r) <- wx_apply n l o ;; ' (l, rs) <- wx_run n l ops ;; Done (l, r :: rs)
  end.
End Wrap.
