(** Model of Assert.hpp (13-19): the macro NazaraAssert inside the statements of C++. *)
From Verif Require Import Base.

Section State.
Context {State : Type}.
(** Conditions and expressions may have side effects. *)
Definition cond := State -> outcome (State * bool).
Definition expr := State -> outcome State.

(** 13 *)
Definition enabled (NAZARA_NO_ASSERT NAZARA_ENABLE_ASSERTS NDEBUG : bool) : bool := negb NAZARA_NO_ASSERT && (NAZARA_ENABLE_ASSERTS || negb NDEBUG).

(** ** Tokens and statements *)
(** [KIf c] stands for "if (c)", [KExpr e] for the tokens of an expression, [KWhile] for "while (false)". *)
Inductive tok := KIf (c : cond) | KElse | KExpr (e : expr) | KSemi | KOpen | KClose | KDo | KWhile.
Inductive stmt := XExpr (e : expr) | XIf (c : cond) (s : stmt) | XIfElse (c : cond) (s t : stmt) | XBlock (l : stmts) | XDoOnce (s : stmt)
with stmts := XNil | XCons (s : stmt) (l : stmts).
(** [stmt.if]: an else belongs to the nearest if before it that has none. *)
Fixpoint parse (fuel : nat) (k : list tok) : option (stmt * list tok) :=
  match fuel with
  | O => None
  | S fuel =>
    match k with
    | KExpr e :: KSemi :: r => Some (XExpr e, r)
    | KIf c :: r =>
      match parse fuel r with
      | Some (s, KElse :: r) => match parse fuel r with Some (t, r) => Some (XIfElse c s t, r) | None => None end
      | Some (s, r) => Some (XIf c s, r)
      | None => None
      end
    | KOpen :: r => match parse_list fuel r with Some (l, r) => Some (XBlock l, r) | None => None end
    | KDo :: r => match parse fuel r with Some (s, KWhile :: KSemi :: r) => Some (XDoOnce s, r) | _ => None end
    | _ => None
    end
  end
with parse_list (fuel : nat) (k : list tok) : option (stmts * list tok) :=
  match fuel with
  | O => None
  | S fuel =>
    match k with
    | KClose :: r => Some (XNil, r)
    | _ => match parse fuel k with Some (s, r) => match parse_list fuel r with Some (l, r) => Some (XCons s l, r) | None => None end | None => None end
    end
  end.
Fixpoint run (s : stmt) (st : State) : outcome State :=
  match s with
  | XExpr e => e st
  | XIf c s => ' (st, b) <- c st ;; if b : bool then run s st else Done st
  | XIfElse c s t => ' (st, b) <- c st ;; if b : bool then run s st else run t st
  | XBlock l => run_list l st
  | XDoOnce s => run s st
  end
with run_list (l : stmts) (st : State) : outcome State :=
  match l with XNil => Done st | XCons s l => st <- run s st ;; run_list l st end.

(** ** Programs as written, with NazaraAssert(c); as a statement, and their expansion *)
Inductive src := SExpr (e : expr) | SAssert (c : cond) | SIf (c : cond) (s : src) | SIfElse (c : cond) (s t : src) | SBlock (l : srcs)
with srcs := SNil | SCons (s : src) (l : srcs).
Definition negate (c : cond) : cond := fun st => ' (st, b) <- c st ;; Done (st, negb b).
(** AssertFailureWithSource (Assert.inl 58-83) does not return. *)
Definition failure : expr := fun _ => Fault FAssert.
(** 14-15 and 17-18, followed by the semicolon of the program *)
Definition expansion (on : bool) (c : cond) : list tok :=
  (if on then [KIf (negate c); KExpr failure] else [KDo; KOpen; KClose; KWhile]) ++ [KSemi].
Fixpoint tokens (on : bool) (s : src) : list tok :=
  match s with
  | SExpr e => [KExpr e; KSemi]
  | SAssert c => expansion on c
  | SIf c s => KIf c :: tokens on s
  | SIfElse c s t => KIf c :: tokens on s ++ KElse :: tokens on t
  | SBlock l => KOpen :: tokens_list on l ++ [KClose]
  end
with tokens_list (on : bool) (l : srcs) : list tok := match l with SNil => [] | SCons s l => tokens on s ++ tokens_list on l end.
End State.
Arguments tok : clear implicits.
Arguments stmt : clear implicits.
Arguments stmts : clear implicits.
Arguments src : clear implicits.
Arguments srcs : clear implicits.
Arguments cond : clear implicits.
Arguments expr : clear implicits.
