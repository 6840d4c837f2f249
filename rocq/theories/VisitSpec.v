(** Going over a changing set of positions: after a position, the least one that is in the set by then. *)
From Verif Require Import Base PoolSpec BitsetSpec BitsetHistory.
Open Scope nat_scope.

Definition first_from (f : nat -> bool) (from size : nat) : option nat := find f (seq from (size - from)).

(** [FAssert]: the position has gone. *)
Fixpoint sp_visit {A} (n : nat) (beh : list nat -> list (pop A)) (fuel : nat) (l : list (slot A)) (from : nat) (seen : list nat) : outcome (list (slot A) * list nat) :=
  match first_from (fun i => held (nth i l Vacant)) from (length l) with
  | None => Done (l, seen)
  | Some i =>
    match fuel with
    | O => Fault FDiverge
    | S fuel =>
      ' (l, _) <- sp_run n l (beh (seen ++ [i])) ;;
      if i <? length l then sp_visit n beh fuel l (i + 1) (seen ++ [i]) else Fault FAssert
    end
  end.
Fixpoint sb_visit (w r : nat) (beh : list nat -> list op) (fuel : nat) (s : nat -> list bool) (from : nat) (seen : list nat) : outcome ((nat -> list bool) * list nat) :=
  match first_from (fun i => nth i (s r) false) from (length (s r)) with
  | None => Done (s, seen)
  | Some i =>
    match fuel with
    | O => Fault FDiverge
    | S fuel =>
      match spec_run w s (beh (seen ++ [i])) with
      | None => Fault FAssert
      | Some s => if i <? length (s r) then sb_visit w r beh fuel s (i + 1) (seen ++ [i]) else Fault FAssert
      end
    end
  end.
