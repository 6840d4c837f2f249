(** What a Flags object is: a set of enumerators, and what the operators compute on sets. *)
From Verif Require Import Base.
Open Scope Z_scope.

(** The bitfield [v] of an enumeration with largest value [mx] is the set [S] (only the values 0..mx of [S] count). *)
Definition holds (mx v : Z) (S : Z -> bool) : Prop :=
  0 <= v < 2 ^ (mx + 1) /\ forall i, 0 <= i <= mx -> Z.testbit v i = S i.

(** Expressions over enumerators: the operators of the class and the free operators on enumerators. *)
Inductive expr :=
| XEmpty | XEnum (e : Z)
| XNot (a : expr) | XAnd (a b : expr) | XOr (a b : expr) | XXor (a b : expr)
| XSet (a b : expr)        (* x = a; x.Set(b) *)
| XClear (a b : expr)      (* x = a; x.Clear(b) *)
| XClearAll (a : expr)
| XOrAssign (a b : expr) | XAndAssign (a b : expr) | XXorAssign (a b : expr)
| XEnumNot (e : Z) | XEnumAnd (e f : Z) | XEnumOr (e f : Z) | XEnumXor (e f : Z)
| XEnumAndFlags (e : Z) (b : expr) | XEnumOrFlags (e : Z) (b : expr) | XEnumXorFlags (e : Z) (b : expr).

(** [one e] is the set of bits an enumerator stands for: {e} for automatic flags, the bits of its value otherwise. *)
Definition one (auto : bool) (e i : Z) : bool := if auto then i =? e else Z.testbit e i.
Fixpoint denote (auto : bool) (x : expr) (i : Z) : bool :=
  match x with
  | XEmpty => false
  | XEnum e => one auto e i
  | XNot a => negb (denote auto a i)
  | XAnd a b | XAndAssign a b => denote auto a i && denote auto b i
  | XOr a b | XSet a b | XOrAssign a b => denote auto a i || denote auto b i
  | XXor a b | XXorAssign a b => xorb (denote auto a i) (denote auto b i)
  | XClear a b => denote auto a i && negb (denote auto b i)
  | XClearAll a => false
  | XEnumNot e => negb (one auto e i)
  | XEnumAnd e f => one auto e i && one auto f i
  | XEnumOr e f => one auto e i || one auto f i
  | XEnumXor e f => xorb (one auto e i) (one auto f i)
  | XEnumAndFlags e b => one auto e i && denote auto b i
  | XEnumOrFlags e b => one auto e i || denote auto b i
  | XEnumXorFlags e b => xorb (one auto e i) (denote auto b i)
  end.
(** Every enumerator of the expression satisfies [P]. *)
Fixpoint enums (P : Z -> Prop) (x : expr) : Prop :=
  match x with
  | XEmpty => True
  | XEnum e | XEnumNot e => P e
  | XNot a | XClearAll a => enums P a
  | XAnd a b | XOr a b | XXor a b | XSet a b | XClear a b | XOrAssign a b | XAndAssign a b | XXorAssign a b => enums P a /\ enums P b
  | XEnumAnd e f | XEnumOr e f | XEnumXor e f => P e /\ P f
  | XEnumAndFlags e b | XEnumOrFlags e b | XEnumXorFlags e b => P e /\ enums P b
  end.
(** The elements of [S] among 0..mx, in increasing order. *)
Definition elements (mx : Z) (S : Z -> bool) : list Z := filter S (map Z.of_nat (seq 0 (Z.to_nat (mx + 1)))).
