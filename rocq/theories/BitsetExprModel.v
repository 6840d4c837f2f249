(** The operators of Bitset that return a new bitset, and expressions made of them. *)
From Verif Require Import BitsetModel BitsetExprSpec.
Open Scope nat_scope.

Section Expressions.
Variable w : nat.
(** The new bitset is number 0, the operands are 1 and 2. *)
Definition operands (a b : bitset) : nat -> bitset := fun r => if r =? 0 then empty else if r =? 1 then a else b.
(** operator~ 966-972 *)
Definition op_not (a : bitset) : outcome bitset := st <- PerformsNOT w (operands a a) 0 1 ;; Done (st 0).
(** operator& 1603-1609, operator| 1619-1625, operator^ 1635-1641 *)
Definition op_and (a b : bitset) : outcome bitset := st <- PerformsAND w (operands a b) 0 1 2 ;; Done (st 0).
Definition op_or (a b : bitset) : outcome bitset := st <- PerformsOR w (operands a b) 0 1 2 ;; Done (st 0).
Definition op_xor (a b : bitset) : outcome bitset := st <- PerformsXOR w (operands a b) 0 1 2 ;; Done (st 0).
Fixpoint eval (env : nat -> bitset) (e : bexp) : outcome bitset :=
  match e with
  | Var x => Done (env x)
  | And a b => x <- eval env a ;; y <- eval env b ;; op_and x y
  | Or a b => x <- eval env a ;; y <- eval env b ;; op_or x y
  | Xor a b => x <- eval env a ;; y <- eval env b ;; op_xor x y
  | Not a => x <- eval env a ;; op_not x
  end.
End Expressions.
