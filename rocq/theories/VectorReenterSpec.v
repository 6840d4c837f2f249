(** Calls that nest, on the elements of a vector: what should happen, without the memory. *)
From Verif Require Import Base VectorReenterModel.
Open Scope nat_scope.

Section Spec.
Context {A : Type}.
Variables (cap : nat) (ctor dtor : A -> list (vcall A)).
(** [l]: the elements, Busy while under construction or destruction, Raw when destroyed by a clear that is not over. [lim]: where the first element popped, its destructor
    still running, was: nothing can be pushed there. *)
Section Calls.
  Variable rec : nat -> list (vcall A) -> list (cell A) -> outcome (list (cell A)).
  Fixpoint sp_clear (fuel lim i : nat) (l : list (cell A)) : outcome (list (cell A)) :=
    if i <? length l then
      match fuel, nth_error l i with
      | S fuel, Some (Live a) => l <- rec lim (dtor a) (upd l i Busy) ;; sp_clear fuel lim (i + 1) (upd l i Raw)
      | O, _ => Fault FDiverge
      | _, _ => Fault FUB
      end
    else Done [].
  Definition sp_one (lim : nat) (c : vcall A) (l : list (cell A)) : outcome (list (cell A)) :=
    match c with
    | VPush a =>
      if length l <? lim then l' <- rec lim (ctor a) (l ++ [Busy]) ;; Done (upd l' (length l) (Live a))
      else if lim <? cap then Fault FUB else Fault FAssert
    | VPop =>
      match nth_error l (length l - 1) with
      | Some (Live a) => rec (length l - 1) (dtor a) (removelast l)
      | Some _ => Fault FUB
      | None => Fault FAssert
      end
    | VRead i => match nth_error l i with Some (Live _) => Done l | Some _ => Fault FUB | None => Fault FAssert end
    | VClear => sp_clear cap lim 0 l
    | VResize _ _ => Fault FThrow
    end.
  Fixpoint sp_all (lim : nat) (cs : list (vcall A)) (l : list (cell A)) : outcome (list (cell A)) :=
    match cs with [] => Done l | c :: cs => l <- sp_one lim c l ;; sp_all lim cs l end.
End Calls.
Fixpoint sp_exec (depth lim : nat) (cs : list (vcall A)) (l : list (cell A)) : outcome (list (cell A)) :=
  match depth with O => Fault FDiverge | S depth => sp_all (sp_exec depth) lim cs l end.

Definition no_resize (c : vcall A) : Prop := match c with VResize _ _ => False | _ => True end.

(** The vector holds exactly these elements. *)
Definition holds (s : vs A) (l : list A) : Prop :=
  length l <= cap /\ s = VS (map Live l ++ repeat Raw (cap - length l)) (length l).

(** [grows a T]: the constructor of [a] adds elements, which add theirs; [T] are all of them, each before those it adds. *)
Inductive grows : A -> list A -> Prop :=
| Grows a kids T : ctor a = map VPush kids -> grow kids T -> grows a (a :: T)
with grow : list A -> list A -> Prop :=
| Grow_nil : grow [] []
| Grow_cons a kids T U : grows a T -> grow kids U -> grow (a :: kids) (T ++ U).
(** [owns a T]: the destructor of [a] pops what [a] owns, which lies below it and is followed by what it owns itself. *)
Inductive owns : A -> list A -> Prop :=
| Owns a kids T : dtor a = map (fun _ => VPop) kids -> own kids T -> owns a (T ++ [a])
with own : list A -> list A -> Prop :=
| Own_nil : own [] []
| Own_cons a kids T U : owns a T -> own kids U -> own (a :: kids) (U ++ T).
(** [drains q n]: destroying the elements of [q] from the first to the last, their destructors adding further ones at the end, takes [n] of them. *)
Inductive drains : list A -> nat -> Prop :=
| Drains_nil : drains [] 0
| Drains_cons a q kids T n : dtor a = map VPush kids -> grow kids T -> drains (q ++ T) n -> drains (a :: q) (S n).
End Spec.
