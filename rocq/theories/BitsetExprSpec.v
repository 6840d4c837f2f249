(** Boolean expressions. *)
From Verif Require Export Base.
Open Scope nat_scope.

Inductive bexp := Var (x : nat) | And (a b : bexp) | Or (a b : bexp) | Xor (a b : bexp) | Not (a : bexp).
(** The value, for values of the variables. *)
Fixpoint truth (v : nat -> bool) (e : bexp) : bool :=
  match e with
  | Var x => v x
  | And a b => if truth v a then truth v b else false
  | Or a b => if truth v a then true else truth v b
  | Xor a b => negb (Bool.eqb (truth v a) (truth v b))
  | Not a => negb (truth v a)
  end.
(** A law of Boolean algebra: both sides have the same value whatever the variables are. *)
Definition law (e f : bexp) : Prop := forall v, truth v e = truth v f.
Fixpoint occurs (x : nat) (e : bexp) : Prop :=
  match e with
  | Var y => x = y
  | And a b | Or a b | Xor a b => occurs x a \/ occurs x b
  | Not a => occurs x a
  end.
Fixpoint no_not (e : bexp) : Prop :=
  match e with
  | Var _ => True
  | And a b | Or a b | Xor a b => no_not a /\ no_not b
  | Not _ => False
  end.
