(** Model of the macro NAZARA_DEFER (CallOnExit.hpp 13) inside the statements of C++, with the objects of CallOnExit (hpp 18-40, inl 19-32).
    Programs as written are expanded to declarations of variables named defer_LINE (NazaraSuffixMacro, Prerequisites.hpp); these are executed
    with the rules of C++ for automatic variables: destroyed in reverse order of construction when their scope is left, however it is left. *)
From Coq Require Export String.
From Coq Require Import DecimalString DecimalNat.
From Verif Require Export Base.

Section State.
Context {State : Type}.

(** The code of an expression: the new state, and whether it threw. *)
Definition code := State -> State * bool.
(** How a statement is left. *)
Inductive leave := Falls | Returns | Throws | Breaks | Continues.

(** ** Programs as written *)
Inductive stmt := Do (e : code) | Defer (line : nat) (e : code) | Var (name : string) | Block (l : stmts) | IfElse (c : State -> bool) (s t : stmt) | Repeat (n : nat) (s : stmt) | Leave (k : leave)
with stmts := SNil | SCons (s : stmt) (l : stmts).

(** ** C++ after expansion *)
Inductive cstmt := CDo (e : code) | CGuard (name : string) (e : code) | CVar (name : string) | CBlock (l : cstmts) | CIfElse (c : State -> bool) (s t : cstmt) | CRepeat (n : nat) (s : cstmt) | CLeave (k : leave)
with cstmts := CNil | CCons (s : cstmt) (l : cstmts).

(** defer_ ## __LINE__ *)
Definition suffix (a b : string) : string := append a b.
Definition line_text (n : nat) : string := NilEmpty.string_of_uint (Nat.to_uint n).
Definition defer_name (line : nat) : string := suffix "defer_" (line_text line).

Fixpoint expand (s : stmt) : cstmt :=
  match s with
  | Do e => CDo e
  | Defer line e => CGuard (defer_name line) e
  | Var x => CVar x
  | Block l => CBlock (expand_list l)
  | IfElse c s t => CIfElse c (expand s) (expand t)
  | Repeat n s => CRepeat n (expand s)
  | Leave k => CLeave k
  end
with expand_list (l : stmts) : cstmts := match l with SNil => CNil | SCons s l => CCons (expand s) (expand_list l) end.

(** ** Well-formed: no name is declared twice in one scope; a substatement is a scope of its own. *)
Definition declared (s : cstmt) : list string := match s with CGuard x _ | CVar x => [x] | _ => [] end.
Fixpoint declared_list (l : cstmts) : list string := match l with CNil => [] | CCons s l => declared s ++ declared_list l end.
Fixpoint distinct (l : list string) : bool := match l with [] => true | x :: l => negb (existsb (String.eqb x) l) && distinct l end.
Fixpoint well_formed (s : cstmt) : bool :=
  match s with
  | CBlock l => distinct (declared_list l) && well_formed_list l
  | CIfElse _ s t => well_formed s && well_formed t
  | CRepeat _ s => well_formed s
  | _ => true
  end
with well_formed_list (l : cstmts) : bool := match l with CNil => true | CCons s l => well_formed s && well_formed_list l end.

(** ** Execution *)
(** A variable of the current scope: its name, and the engaged functor when it is a CallOnExit. The last one constructed comes first. *)
Definition object : Type := string * option code.
(** ~CallOnExit, noexcept *)
Definition destroy (o : object) (st : State) : outcome State :=
  match snd o with
  | None => Done st
  | Some f => let (st, threw) := f st in if threw : bool then Fault FTerminate else Done st
  end.
Fixpoint destroy_all (l : list object) (st : State) : outcome State := match l with [] => Done st | o :: l => st <- destroy o st ;; destroy_all l st end.

Fixpoint repeat_body (n : nat) (body : State -> outcome (leave * State)) (st : State) : outcome (leave * State) :=
  match n with
  | O => Done (Falls, st)
  | S n => ' (k, st) <- body st ;;
           match k with
           | Falls | Continues => repeat_body n body st
           | Breaks => Done (Falls, st)
           | Returns | Throws => Done (k, st)
           end
  end.

(** One statement in a scope with variables [vars]. *)
Fixpoint exec (s : cstmt) (vars : list object) (st : State) : outcome (leave * list object * State) :=
  match s with
  | CDo e => let (st, threw) := e st in Done (if threw : bool then Throws else Falls, vars, st)
  | CGuard x e => Done (Falls, (x, Some e) :: vars, st)
  | CVar x => Done (Falls, (x, None) :: vars, st)
  | CBlock l => ' (k, inner, st) <- exec_list l [] st ;; st <- destroy_all inner st ;; Done (k, vars, st)
  | CIfElse c s t => ' (k, inner, st) <- (if c st then exec s [] st else exec t [] st) ;; st <- destroy_all inner st ;; Done (k, vars, st)
  | CRepeat n s => ' (k, st) <- repeat_body n (fun st => ' (k, inner, st) <- exec s [] st ;; st <- destroy_all inner st ;; Done (k, st)) st ;; Done (k, vars, st)
  | CLeave k => Done (k, vars, st)
  end
with exec_list (l : cstmts) (vars : list object) (st : State) : outcome (leave * list object * State) :=
  match l with
  | CNil => Done (Falls, vars, st)
  | CCons s l => ' (k, vars, st) <- exec s vars st ;; match k with Falls => exec_list l vars st | _ => Done (k, vars, st) end
  end.

(** A function body; [None] when it does not compile. *)
Definition run (l : stmts) (st : State) : option (outcome (leave * State)) :=
  let c := CBlock (expand_list l) in
  if well_formed c then Some (' (k, _, st) <- exec c [] st ;; Done (k, st)) else None.
End State.
Arguments code : clear implicits.
Arguments stmt : clear implicits.
Arguments stmts : clear implicits.
Arguments cstmt : clear implicits.
Arguments cstmts : clear implicits.
Arguments object : clear implicits.
