(** Model of the macros NAZARA_ASSUME, NAZARA_LIKELY, NAZARA_UNLIKELY, NAZARA_UNREACHABLE (Prerequisites.hpp 287-397), NazaraUnused (458) and
    NAZARA_IS_CONSTEVAL, NAZARA_IS_RUNTIME_EVAL (ConstantEvaluated.hpp 13-33): which expansion the preprocessor selects and its tokens.
    The macros the compiler and the command line define are an environment as in PlatformModel.v, [attribute] is __has_cpp_attribute, if the compiler has it.
    Simplified: the argument of a macro is one argument, that is, its tokens have no comma outside parentheses; the environment does not predefine the macros
    modelled here. *)
From Verif Require Export PlatformModel.
Open Scope string_scope.
Open Scope Z_scope.
Open Scope list_scope.

Record target := Target { macros : env; attribute : option (string -> Z) }.
(** Prerequisites.hpp 287-292 *)
Definition HasCppAttribute (t : target) (a : string) : bool := match attribute t with Some f => negb (f a =? 0) | None => false end.

(** [Var n] is a token of the program; [Op] a binary operator; the names are those of the functions the expansions call. *)
Inductive fn := BuiltinAssume | MsvcAssume | BuiltinExpect | BuiltinUnreachable | StdIsConstantEvaluated | BuiltinIsConstantEvaluated.
Inductive tok :=
  | Var (n : nat) | Op | Not | LPar | RPar | Comma | Semi | LBrace | RBrace | LAttr | RAttr
  | KIf | KElse | KConsteval | KVoid | KThrow | KUnreachableError | KFalse | KTrue | Num (n : bool) | Fn (f : fn)
  | KAttribute | AAssume | ALikely (b : bool).

(** Prerequisites.hpp 294-322, 379-381 *)
Definition Assume (t : target) (e : list tok) : list tok :=
  if defined (macros t) "NAZARA_NO_ASSUME_ATTRIBUTE" then []
  else if CheckCppVer (macros t) CPP23 || HasCppAttribute t "assume" then [LAttr; AAssume; LPar] ++ e ++ [RPar; RAttr]
  else match compiler_of (macros t) with
       | Clang => [Fn BuiltinAssume; LPar] ++ e ++ [RPar]
       | Gcc => if 13 <=? value (macros t) "__GNUC__" then [KAttribute; LPar; AAssume; LPar] ++ e ++ [RPar; RPar] else []
       | Msvc => [Fn MsvcAssume; LPar] ++ e ++ [RPar]
       | Icc | UnknownCompiler => []
       end.
(** 341-364, 387-393; [b] is true for NAZARA_LIKELY *)
Definition Expect (t : target) (b : bool) (e : list tok) : list tok :=
  if defined (macros t) "NAZARA_NO_LIKELY_ATTRIBUTE" then [LPar] ++ e ++ [RPar]
  else if CheckCppVer (macros t) CPP20 || HasCppAttribute t (if b then "likely" else "unlikely") then [LPar] ++ e ++ [RPar; LAttr; ALikely b; RAttr]
  else match compiler_of (macros t) with
       | Clang | Gcc | Icc => [LPar; Fn BuiltinExpect; LPar; Not; Not; LPar] ++ e ++ [RPar; Comma; Num b; RPar; RPar]
       | Msvc | UnknownCompiler => [LPar] ++ e ++ [RPar]
       end.
(** 366-375, 395-397 *)
Definition Unreachable (t : target) : list tok :=
  let fallback := [KThrow; KUnreachableError; LBrace; RBrace; Semi] in
  if defined (macros t) "NAZARA_NO_UNREACHABLE_MACRO" then fallback
  else match compiler_of (macros t) with
       | Clang | Gcc | Icc => [Fn BuiltinUnreachable; LPar; RPar]
       | Msvc => [Fn MsvcAssume; LPar; KFalse; RPar]
       | UnknownCompiler => fallback
       end.
(** 458 *)
Definition Unused (e : list tok) : list tok := [LPar; KVoid; RPar] ++ e.

(** ConstantEvaluated.hpp 13-33 *)
Inductive evaluation := IfConsteval | StdFunction | Builtin | NoConsteval.
Definition evaluation_of (m : env) : evaluation :=
  if CheckCppVer m CPP23 then IfConsteval
  else if CheckCppVer m CPP20 then StdFunction
  else if CheckMsvcVer m 1925 || CheckClangVer m 900 || CheckGccVer m 900 then Builtin
  else NoConsteval.
Definition IsConsteval (t : target) : list tok :=
  match evaluation_of (macros t) with
  | IfConsteval => [KConsteval]
  | StdFunction => [LPar; Fn StdIsConstantEvaluated; LPar; RPar; RPar]
  | Builtin => [LPar; Fn BuiltinIsConstantEvaluated; LPar; RPar; RPar]
  | NoConsteval => [LPar; KFalse; RPar]
  end.
Definition IsRuntimeEval (t : target) : list tok :=
  match evaluation_of (macros t) with
  | IfConsteval => [Not; KConsteval]
  | StdFunction => [LPar; Not; Fn StdIsConstantEvaluated; LPar; RPar; RPar]
  | Builtin => [LPar; Not; Fn BuiltinIsConstantEvaluated; LPar; RPar; RPar]
  | NoConsteval => [LPar; KTrue; RPar]
  end.
(** Is NAZARA_CONSTEXPR20 constexpr? *)
Definition Constexpr20 (t : target) : bool := match evaluation_of (macros t) with NoConsteval => false | _ => true end.

(** ** C++: expressions and statements *)
(** One binary operator, taken to associate to the right as assignments do. *)
Inductive expr := EVar (n : nat) | EConst (b : bool) | ENot (e : expr) | EBin (a b : expr) | EVoid (e : expr) | ECall0 (f : fn) | ECall1 (f : fn) (a : expr) | ECall2 (f : fn) (a b : expr).
Fixpoint parse_unary (fuel : nat) (k : list tok) : option (expr * list tok) :=
  match fuel with
  | O => None
  | S fuel =>
    match k with
    | Var n :: r => Some (EVar n, r)
    | KTrue :: r => Some (EConst true, r)
    | KFalse :: r => Some (EConst false, r)
    | Num b :: r => Some (EConst b, r)
    | Not :: r => match parse_unary fuel r with Some (e, r) => Some (ENot e, r) | None => None end
    | LPar :: r =>
      match r with
      | KVoid :: r => match r with RPar :: r => match parse_unary fuel r with Some (e, r) => Some (EVoid e, r) | None => None end | _ => None end
      | _ => match parse_expr fuel r with Some (e, RPar :: r) => Some (e, r) | _ => None end
      end
    | Fn f :: r =>
      match r with
      | LPar :: r =>
        match r with
        | RPar :: r => Some (ECall0 f, r)
        | _ =>
          match parse_expr fuel r with
          | Some (a, RPar :: r) => Some (ECall1 f a, r)
          | Some (a, Comma :: r) => match parse_expr fuel r with Some (b, RPar :: r) => Some (ECall2 f a b, r) | _ => None end
          | _ => None
          end
        end
      | _ => None
      end
    | _ => None
    end
  end
with parse_expr (fuel : nat) (k : list tok) : option (expr * list tok) :=
  match fuel with
  | O => None
  | S fuel =>
    match parse_unary fuel k with
    | Some (a, Op :: r) => match parse_expr fuel r with Some (b, r) => Some (EBin a b, r) | None => None end
    | x => x
    end
  end.

Inductive stmt :=
  | XNull | XExpr (e : expr) | XAssume (e : expr) | XThrow | XBlock (l : stmts)
  | XIf (e : expr) (s : stmt) | XIfElse (e : expr) (s t : stmt)
  | XConsteval (negated : bool) (s : stmt) | XConstevalElse (negated : bool) (s t : stmt)
with stmts := XNil | XCons (s : stmt) (l : stmts).
(** [stmt.if]: the statement after "if consteval" is a compound statement. [dcl.attr.assume]: assume applies to the null statement. Attributes the compiler
    does not know are ignored. The attribute of GCC has two pairs of parentheses. *)
Fixpoint parse_stmt (fuel : nat) (k : list tok) : option (stmt * list tok) :=
  match fuel with
  | O => None
  | S fuel =>
    match k with
    | Semi :: r => Some (XNull, r)
    | LAttr :: r =>
      match r with
      | AAssume :: r => match r with LPar :: r => match parse_expr fuel r with Some (e, RPar :: RAttr :: Semi :: r) => Some (XAssume e, r) | _ => None end | _ => None end
      | ALikely _ :: r => match r with RAttr :: r => parse_stmt fuel r | _ => None end
      | _ => None
      end
    | KAttribute :: r =>
      match r with
      | LPar :: LPar :: AAssume :: LPar :: r => match parse_expr fuel r with Some (e, RPar :: RPar :: RPar :: Semi :: r) => Some (XAssume e, r) | _ => None end
      | _ => None
      end
    | KThrow :: r => match r with KUnreachableError :: LBrace :: RBrace :: Semi :: r => Some (XThrow, r) | _ => None end
    | LBrace :: r => match parse_list fuel r with Some (l, r) => Some (XBlock l, r) | None => None end
    | KIf :: r =>
      match r with
      | KConsteval :: r => match r with LBrace :: r => parse_consteval fuel false r | _ => None end
      | Not :: r => match r with KConsteval :: LBrace :: r => parse_consteval fuel true r | _ => None end
      | LPar :: r =>
        match parse_expr fuel r with
        | Some (e, RPar :: r) =>
          match parse_stmt fuel r with
          | Some (s, KElse :: r) => match parse_stmt fuel r with Some (t, r) => Some (XIfElse e s t, r) | None => None end
          | Some (s, r) => Some (XIf e s, r)
          | None => None
          end
        | _ => None
        end
      | _ => None
      end
    | _ => match parse_expr fuel k with Some (e, Semi :: r) => Some (XExpr e, r) | _ => None end
    end
  end
with parse_consteval (fuel : nat) (negated : bool) (k : list tok) : option (stmt * list tok) :=
  match fuel with
  | O => None
  | S fuel =>
    match parse_list fuel k with
    | Some (l, KElse :: r) => match parse_stmt fuel r with Some (t, r) => Some (XConstevalElse negated (XBlock l) t, r) | None => None end
    | Some (l, r) => Some (XConsteval negated (XBlock l), r)
    | None => None
    end
  end
with parse_list (fuel : nat) (k : list tok) : option (stmts * list tok) :=
  match fuel with
  | O => None
  | S fuel =>
    match k with
    | RBrace :: r => Some (XNil, r)
    | _ => match parse_stmt fuel k with Some (s, r) => match parse_list fuel r with Some (l, r) => Some (XCons s l, r) | None => None end | None => None end
    end
  end.

(** ** Running them *)
Inductive val := VVoid | VBool (b : bool).
(** [vars]: the values of the program's variables; [op]: what the operator computes; [ce]: is this a constant evaluation? An ill-formed expression is [None]. *)
Section Run.
Context (vars : nat -> bool) (op : bool -> bool -> bool) (ce : bool).
Definition the (v : option (outcome val)) (k : bool -> option (outcome val)) : option (outcome val) :=
  match v with Some (Done (VBool b)) => k b | Some (Fault f) => Some (Fault f) | _ => None end.
Definition bool_of (b : bool) : option (outcome val) := Some (Done (VBool b)).
Fixpoint eval (e : expr) : option (outcome val) :=
  match e with
  | EVar n => bool_of (vars n)
  | EConst b => bool_of b
  | ENot a => the (eval a) (fun x => bool_of (negb x))
  | EBin a b => the (eval a) (fun x => the (eval b) (fun y => bool_of (op x y)))
  | EVoid a => match eval a with Some (Done _) => Some (Done VVoid) | x => x end
  | ECall0 (StdIsConstantEvaluated | BuiltinIsConstantEvaluated) => bool_of ce
  | ECall0 BuiltinUnreachable => Some (Fault FUB)
  | ECall1 (BuiltinAssume | MsvcAssume) a => the (eval a) (fun x => Some (if x then Done VVoid else Fault FUB))
  | ECall2 BuiltinExpect a b => the (eval a) (fun x => the (eval b) (fun _ => bool_of x))
  | _ => None
  end.
(** The statements run are the marks [XExpr (EVar n)] and those the macros make; the result is the list of marks. *)
Definition next (r : option (outcome (list nat))) (k : list nat -> option (outcome (list nat))) : option (outcome (list nat)) :=
  match r with Some (Done l) => k l | x => x end.
Fixpoint run (s : stmt) (out : list nat) : option (outcome (list nat)) :=
  match s with
  | XNull => Some (Done out)
  | XExpr (EVar n) => Some (Done (out ++ [n])%list)
  | XExpr e => match eval e with Some (Done _) => Some (Done out) | Some (Fault f) => Some (Fault f) | None => None end
  | XAssume e => match eval e with Some (Done (VBool b)) => Some (if b then Done out else Fault FUB) | Some (Fault f) => Some (Fault FUB) | _ => None end
  | XThrow => Some (Fault FThrow)
  | XBlock l => run_list l out
  | XIf e s => match eval e with Some (Done (VBool b)) => if b then run s out else Some (Done out) | Some (Fault f) => Some (Fault f) | _ => None end
  | XIfElse e s t => match eval e with Some (Done (VBool b)) => if b then run s out else run t out | Some (Fault f) => Some (Fault f) | _ => None end
  | XConsteval negated s => if xorb ce negated then run s out else Some (Done out)
  | XConstevalElse negated s t => if xorb ce negated then run s out else run t out
  end
with run_list (l : stmts) (out : list nat) : option (outcome (list nat)) :=
  match l with XNil => Some (Done out) | XCons s l => next (run s out) (run_list l) end.
End Run.
