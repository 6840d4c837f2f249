(** Property C121: the macros that hide compiler features expand to valid code with one meaning. *)
From Verif Require Import FeatureModel.
Open Scope string_scope.
Open Scope Z_scope.
Open Scope list_scope.

(** ** Specification *)
(** Expressions as the program writes them, their text and their value. *)
Inductive source := SVar (n : nat) | SNot (s : source) | SBin (a b : source).
Fixpoint text (top : bool) (s : source) : list tok :=
  match s with
  | SVar n => [Var n]
  | SNot a => Not :: text false a
  | SBin a b => if top then text false a ++ Op :: text true b else LPar :: (text false a ++ Op :: text true b) ++ [RPar]
  end.
Fixpoint meaning (vars : nat -> bool) (op : bool -> bool -> bool) (s : source) : bool :=
  match s with SVar n => vars n | SNot a => negb (meaning vars op a) | SBin a b => op (meaning vars op a) (meaning vars op b) end.
(** The tokens [k] are a statement, whatever follows; or provided no else follows. *)
Definition closed (k : list tok) (x : stmt) : Prop := exists n, forall n' rest, (n <= n')%nat -> parse_stmt n' (k ++ rest) = Some (x, rest).
Definition begins_with_else (k : list tok) : bool := match k with KElse :: _ => true | _ => false end.
Definition statement (k : list tok) (x : stmt) : Prop :=
  exists n, forall n' rest, (n <= n')%nat -> begins_with_else rest = false -> parse_stmt n' (k ++ rest) = Some (x, rest).
(** The tokens [k] in braces are a block. *)
Definition block (k : list tok) (l : stmts) : Prop := exists n, forall n' rest, (n <= n')%nat -> parse_list n' (k ++ RBrace :: rest) = Some (l, rest).
Definition goes_on (r : option (outcome (list nat))) (out : list nat) : Prop := r = Some (Done out).
Definition stops (r : option (outcome (list nat))) : Prop := r = Some (Fault FUB) \/ r = Some (Fault FThrow).

(** ** Parsing expressions *)
Fixpoint ast (s : source) : expr := match s with SVar n => EVar n | SNot a => ENot (ast a) | SBin a b => EBin (ast a) (ast b) end.
Lemma eval_ast vars op ce s : eval vars op ce (ast s) = Some (Done (VBool (meaning vars op s))).
Proof. induction s as [n|a IH|a IHa b IHb]; cbn; [reflexivity|now rewrite IH|now rewrite IHa, IHb]. Qed.
Definition head_ok (h : tok) : bool := match h with Var _ | Not | LPar => true | _ => false end.
Lemma text_head top s : exists h r, text top s = h :: r /\ head_ok h = true.
Proof.
  revert top. induction s as [n|a IH|a IHa b IHb]; intros top; cbn.
  - now exists (Var n), [].
  - now exists Not, (text false a).
  - destruct top; [|eexists; eexists; split; reflexivity]. destruct (IHa false) as (h & r & -> & H). exists h, (r ++ Op :: text true b). split; [reflexivity|exact H].
Qed.
Definition begins_with_op (k : list tok) : bool := match k with Op :: _ => true | _ => false end.
Lemma parse_paren n h r : head_ok h = true -> parse_unary (S n) (LPar :: h :: r) = match parse_expr n (h :: r) with Some (e, RPar :: r) => Some (e, r) | _ => None end.
Proof. destruct h; intros H; try discriminate H; reflexivity. Qed.
Lemma parse_text s :
  (exists n, forall n' rest, (n <= n')%nat -> parse_unary n' (text false s ++ rest) = Some (ast s, rest)) /\
  (exists n, forall n' rest, (n <= n')%nat -> begins_with_op rest = false -> parse_expr n' (text true s ++ rest) = Some (ast s, rest)).
Proof.
  assert (U : forall k e, (exists n, forall n' rest, (n <= n')%nat -> parse_unary n' (k ++ rest) = Some (e, rest)) ->
    exists n, forall n' rest, (n <= n')%nat -> begins_with_op rest = false -> parse_expr n' (k ++ rest) = Some (e, rest)).
  { intros k e (n & H). exists (S n). intros [|n'] rest L B; [lia|]. cbn [parse_expr]. rewrite H by lia. destruct rest as [|[] rest]; try reflexivity. discriminate. }
  induction s as [v|a IH|a IHa b IHb].
  - assert (K : exists n, forall n' rest, (n <= n')%nat -> parse_unary n' ([Var v] ++ rest) = Some (EVar v, rest)) by (exists 1%nat; intros [|n'] rest L; [lia|reflexivity]).
    split; [exact K|apply (U [Var v] (EVar v)), K].
  - destruct IH as ((n & H) & _).
    assert (K : exists n, forall n' rest, (n <= n')%nat -> parse_unary n' ((Not :: text false a) ++ rest) = Some (ENot (ast a), rest)).
    { exists (S n). intros [|n'] rest L; [lia|]. cbn [app parse_unary]. rewrite H by lia. reflexivity. }
    split; [exact K|apply (U (Not :: text false a) (ENot (ast a))), K].
  - destruct IHa as ((na & Ha) & _), IHb as (_ & (nb & Hb)).
    assert (K : forall n' rest, (S (na + nb) <= n')%nat -> begins_with_op rest = false -> parse_expr n' (text true (SBin a b) ++ rest) = Some (EBin (ast a) (ast b), rest)).
    { intros [|n'] rest L B; [lia|]. cbn [text parse_expr]. rewrite <- app_assoc. rewrite Ha by lia. cbn [app]. rewrite Hb by (lia || exact B). reflexivity. }
    split; [|eexists; exact K]. exists (S (S (na + nb))). intros [|n'] rest L; [lia|].
    assert (E : parse_expr n' (text true (SBin a b) ++ RPar :: rest) = Some (EBin (ast a) (ast b), RPar :: rest)) by (apply K; [lia|reflexivity]).
    change (text false (SBin a b)) with (LPar :: text true (SBin a b) ++ [RPar]). cbn [app]. rewrite <- app_assoc. cbn [app].
    destruct (text_head true (SBin a b)) as (h & r & T & O). rewrite T in *. cbn [app] in *. rewrite parse_paren by exact O. rewrite E. reflexivity.
Qed.
Lemma parse_top s : exists n, forall n' rest, (n <= n')%nat -> begins_with_op rest = false -> parse_expr n' (text true s ++ rest) = Some (ast s, rest).
Proof. exact (proj2 (parse_text s)). Qed.
(** The condition of an if, with and without else, in each of the forms of the macro *)
Lemma parse_if (c : list tok) (e : expr) (k : list tok) (x : stmt) :
  (exists n, forall n' rest, (n <= n')%nat -> parse_expr n' (c ++ RPar :: rest) = Some (e, RPar :: rest)) -> statement k x -> statement (KIf :: LPar :: c ++ RPar :: k) (XIf e x).
Proof.
  intros (n & H) (m & K). exists (S (n + m)). intros [|n'] rest L B; [lia|]. cbn [app parse_stmt]. rewrite <- app_assoc. cbn [app]. rewrite H by lia. rewrite K by (lia || exact B).
  destruct rest as [|[] rest]; try reflexivity. discriminate.
Qed.
Lemma parse_ifelse (c : list tok) (e : expr) (k k2 : list tok) (x y : stmt) :
  (exists n, forall n' rest, (n <= n')%nat -> parse_expr n' (c ++ RPar :: rest) = Some (e, RPar :: rest)) -> closed k x -> statement k2 y ->
  statement (KIf :: LPar :: c ++ RPar :: k ++ KElse :: k2) (XIfElse e x y).
Proof.
  intros (n & H) (m & K) (m2 & K2). exists (S (n + m + m2)). intros [|n'] rest L B; [lia|]. cbn [app parse_stmt]. rewrite <- app_assoc. cbn [app]. rewrite H by lia.
  rewrite <- app_assoc. rewrite K by lia. cbn [app]. rewrite K2 by (lia || exact B). reflexivity.
Qed.
Lemma statement_likely b k x : statement k x -> statement (LAttr :: ALikely b :: RAttr :: k) x.
Proof. intros (n & H). exists (S n). intros [|n'] rest L B; [lia|]. cbn [app parse_stmt]. apply H; [lia|exact B]. Qed.
Lemma closed_likely b k x : closed k x -> closed (LAttr :: ALikely b :: RAttr :: k) x.
Proof. intros (n & H). exists (S n). intros [|n'] rest L; [lia|]. cbn [app parse_stmt]. apply H; lia. Qed.
Lemma parse_plain s : exists n, forall n' rest, (n <= n')%nat -> parse_expr n' (text true s ++ RPar :: rest) = Some (ast s, RPar :: rest).
Proof. destruct (parse_top s) as (n & H). exists n. intros n' rest L. apply H; [exact L|reflexivity]. Qed.
Definition expect_tokens (b : bool) (s : source) : list tok := [Fn BuiltinExpect; LPar; Not; Not; LPar] ++ text true s ++ [RPar; Comma; Num b; RPar].
Lemma parse_expr_S n k : parse_expr (S n) k =
  match parse_unary n k with Some (a, Op :: r) => match parse_expr n r with Some (b, r) => Some (EBin a b, r) | None => None end | x => x end.
Proof. reflexivity. Qed.
Lemma parse_not n r : parse_unary (S n) (Not :: r) = match parse_unary n r with Some (e, r) => Some (ENot e, r) | None => None end.
Proof. reflexivity. Qed.
Lemma parse_call n f h r : match h with RPar => false | _ => true end = true ->
  parse_unary (S n) (Fn f :: LPar :: h :: r) =
  match parse_expr n (h :: r) with
  | Some (a, RPar :: r) => Some (ECall1 f a, r)
  | Some (a, Comma :: r) => match parse_expr n r with Some (b, RPar :: r) => Some (ECall2 f a b, r) | _ => None end
  | _ => None
  end.
Proof. destruct h; intros H; try discriminate H; reflexivity. Qed.
Lemma parse_expect b s : exists n, forall n' rest, (n <= n')%nat ->
  parse_expr n' (expect_tokens b s ++ RPar :: rest) = Some (ECall2 BuiltinExpect (ENot (ENot (ast s))) (EConst b), RPar :: rest).
Proof.
  destruct (parse_plain s) as (n & H). exists (7 + n)%nat. intros n' rest L. do 7 (destruct n' as [|n']; [lia|]). unfold expect_tokens. cbn [app]. rewrite <- app_assoc. cbn [app].
  rewrite parse_expr_S, parse_call by reflexivity. rewrite parse_expr_S, parse_not, parse_not. destruct (text_head true s) as (h & r & T & O). rewrite T in *. cbn [app] in *.
  rewrite parse_paren by exact O. rewrite H by lia. reflexivity.
Qed.
Lemma expect_forms t b s k :
  (KIf :: Expect t b (text true s) ++ k = KIf :: LPar :: text true s ++ RPar :: k) \/
  (KIf :: Expect t b (text true s) ++ k = KIf :: LPar :: text true s ++ RPar :: LAttr :: ALikely b :: RAttr :: k) \/
  (KIf :: Expect t b (text true s) ++ k = KIf :: LPar :: expect_tokens b s ++ RPar :: k).
Proof.
  unfold Expect, expect_tokens. destruct (defined _ _); [left; cbn [app]; rewrite <- ?app_assoc; reflexivity|].
  destruct (_ || _); [right; left; cbn [app]; rewrite <- ?app_assoc; reflexivity|].
  destruct (compiler_of _); [right; right|right; right|right; right|left|left]; cbn [app]; rewrite <- ?app_assoc; cbn [app]; rewrite <- ?app_assoc; reflexivity.
Qed.

(** ** C121 *)
(** NAZARA_LIKELY and NAZARA_UNLIKELY test their argument, before any statement, with every compiler. *)
Theorem C121_likely : forall t b s k x, statement k x ->
  exists y, statement (KIf :: Expect t b (text true s) ++ k) y /\
    forall vars op ce out, run vars op ce y out = if meaning vars op s then run vars op ce x out else Some (Done out).
Proof.
  intros t b s k x K. destruct (expect_forms t b s k) as [E|[E|E]]; rewrite E.
  - exists (XIf (ast s) x). split; [apply parse_if; [apply parse_plain|exact K]|]. intros. cbn [run]. now rewrite eval_ast.
  - exists (XIf (ast s) x). split; [apply parse_if; [apply parse_plain|now apply statement_likely]|]. intros. cbn [run]. now rewrite eval_ast.
  - eexists. split; [apply parse_if; [apply parse_expect|exact K]|]. intros. cbn [run eval]. rewrite eval_ast. cbn. now rewrite Bool.negb_involutive.
Qed.
Theorem C121_likely_else : forall t b s k x k2 y, closed k x -> statement k2 y ->
  exists z, statement (KIf :: Expect t b (text true s) ++ k ++ KElse :: k2) z /\
    forall vars op ce out, run vars op ce z out = if meaning vars op s then run vars op ce x out else run vars op ce y out.
Proof.
  intros t b s k x k2 y K K2. destruct (expect_forms t b s (k ++ KElse :: k2)) as [E|[E|E]]; rewrite E.
  - exists (XIfElse (ast s) x y). split; [apply parse_ifelse; [apply parse_plain|exact K|exact K2]|]. intros. cbn [run]. now rewrite eval_ast.
  - exists (XIfElse (ast s) x y). split; [apply (parse_ifelse (text true s) (ast s) (LAttr :: ALikely b :: RAttr :: k)); [apply parse_plain|now apply closed_likely|exact K2]|].
    intros. cbn [run]. now rewrite eval_ast.
  - eexists. split; [apply parse_ifelse; [apply parse_expect|exact K|exact K2]|]. intros. cbn [run eval]. rewrite eval_ast. cbn. now rewrite Bool.negb_involutive.
Qed.

(** NAZARA_ASSUME is a statement that does nothing when its argument holds (and may be undefined when it does not), except where its GCC form is chosen:
    a compiler with a __GNUC__ of 13 or more and without the standard attribute, before C++23. The Intel compiler with the headers of a GCC 13 is one. *)
Definition gcc_form (t : target) : bool :=
  negb (defined (macros t) "NAZARA_NO_ASSUME_ATTRIBUTE") && negb (202302 <=? CppVer (macros t)) && negb (match attribute t with Some f => negb (f "assume" =? 0) | None => false end) &&
  match compiler_of (macros t) with Gcc => 13 <=? value (macros t) "__GNUC__" | _ => false end.
Theorem C121_assume_partial : forall t s, gcc_form t = false ->
  exists x, closed (Assume t (text true s) ++ [Semi]) x /\
    forall vars op ce out, if meaning vars op s then goes_on (run vars op ce x out) out else goes_on (run vars op ce x out) out \/ stops (run vars op ce x out).
Proof.
  intros t s G. unfold gcc_form in G. unfold Assume, CheckCppVer, HasCppAttribute, CPP23.
  assert (N : exists x, closed ([] ++ [Semi]) x /\ forall vars op ce out, if meaning vars op s then goes_on (run vars op ce x out) out else goes_on (run vars op ce x out) out \/ stops (run vars op ce x out)).
  { exists XNull. split; [exists 1%nat; intros [|n'] rest L; [lia|reflexivity]|]. intros. destruct (meaning vars op s); [reflexivity|left; reflexivity]. }
  assert (F : forall f, f = BuiltinAssume \/ f = MsvcAssume -> exists x, closed (([Fn f; LPar] ++ text true s ++ [RPar]) ++ [Semi]) x /\
    forall vars op ce out, if meaning vars op s then goes_on (run vars op ce x out) out else goes_on (run vars op ce x out) out \/ stops (run vars op ce x out)).
  { intros f FF. exists (XExpr (ECall1 f (ast s))). split.
    - destruct (parse_plain s) as (n & H). exists (3 + n)%nat. intros n' rest L. do 3 (destruct n' as [|n']; [lia|]). cbn [app]. rewrite <- !app_assoc. cbn [app].
      destruct (text_head true s) as (h & r & T & O). rewrite T in *. cbn [app] in *. cbn [parse_stmt parse_expr].
      rewrite parse_call by (destruct h; try discriminate O; reflexivity). rewrite H by lia. reflexivity.
    - intros. cbn [run eval]. rewrite eval_ast. destruct FF as [-> | ->]; cbn; destruct (meaning vars op s); cbn; try reflexivity; right; left; reflexivity. }
  destruct (defined _ _); [exact N|]. cbn [negb andb] in G. destruct (202302 <=? _) eqn:V; cbn [negb andb orb] in *.
  2: destruct (match attribute t with Some _ => _ | None => _ end); cbn [negb andb] in G.
  3: { destruct (compiler_of _); [apply F; now left| |exact N|apply F; now right|exact N]. rewrite G. exact N. }
  all: exists (XAssume (ast s)); split;
    [destruct (parse_plain s) as (n & H); exists (S n); intros [|n'] rest L; [lia|]; cbn [app]; rewrite <- !app_assoc; cbn [app parse_stmt]; rewrite H by lia; reflexivity|];
    intros; cbn [run]; rewrite eval_ast; destruct (meaning vars op s); [reflexivity|right; left; reflexivity].
Qed.
Theorem C121_assume_refuted : forall t s n rest, gcc_form t = true -> parse_stmt n (Assume t (text true s) ++ Semi :: rest) = None.
Proof.
  intros t s n rest G. unfold gcc_form in G. unfold Assume, CheckCppVer, HasCppAttribute, CPP23.
  destruct (defined _ _); [discriminate|]. destruct (202302 <=? _); [discriminate|]. destruct (match attribute t with Some _ => _ | None => _ end); [discriminate|]. cbn [negb andb orb] in *.
  destruct (compiler_of _); try discriminate. rewrite G. destruct n as [|[|[|n]]]; reflexivity.
Qed.

(** NAZARA_UNREACHABLE never goes on. *)
Theorem C121_unreachable : forall t, exists x, closed (LBrace :: Unreachable t ++ [Semi; RBrace]) x /\ forall vars op ce out, stops (run vars op ce x out).
Proof.
  intros t. unfold Unreachable.
  assert (T : exists x, closed (LBrace :: [KThrow; KUnreachableError; LBrace; RBrace; Semi] ++ [Semi; RBrace]) x /\ forall vars op ce out, stops (run vars op ce x out)).
  { eexists. split; [exists 6%nat; intros n' rest L; do 6 (destruct n' as [|n']; [lia|]); reflexivity|]. intros. right. reflexivity. }
  assert (B : exists x, closed (LBrace :: [Fn BuiltinUnreachable; LPar; RPar] ++ [Semi; RBrace]) x /\ forall vars op ce out, stops (run vars op ce x out)).
  { eexists. split; [exists 6%nat; intros n' rest L; do 6 (destruct n' as [|n']; [lia|]); reflexivity|]. intros. left. reflexivity. }
  destruct (defined _ _); [exact T|]. destruct (compiler_of _); try exact B; try exact T.
  eexists. split; [exists 7%nat; intros n' rest L; do 7 (destruct n' as [|n']; [lia|]); reflexivity|]. intros. left. reflexivity.
Qed.
(** Before an else it is a statement unless the exception is used, whose semicolon is part of the macro. *)
Definition throws (t : target) : bool := defined (macros t) "NAZARA_NO_UNREACHABLE_MACRO" || match compiler_of (macros t) with UnknownCompiler => true | _ => false end.
Theorem C121_unreachable_else_partial : forall t s k y, throws t = false -> statement k y ->
  exists z, statement (KIf :: LPar :: text true s ++ RPar :: Unreachable t ++ Semi :: KElse :: k) z /\
    forall vars op ce out, if meaning vars op s then stops (run vars op ce z out) else run vars op ce z out = run vars op ce y out.
Proof.
  intros t s k y F K. unfold throws in F. unfold Unreachable. destruct (defined _ _); [discriminate|]. cbn [orb] in F.
  assert (B : exists z, statement (KIf :: LPar :: text true s ++ RPar :: [Fn BuiltinUnreachable; LPar; RPar] ++ Semi :: KElse :: k) z /\
    forall vars op ce out, if meaning vars op s then stops (run vars op ce z out) else run vars op ce z out = run vars op ce y out).
  { exists (XIfElse (ast s) (XExpr (ECall0 BuiltinUnreachable)) y). split.
    - apply (parse_ifelse (text true s) (ast s) [Fn BuiltinUnreachable; LPar; RPar; Semi]); [apply parse_plain| |exact K].
      exists 3%nat. intros n' rest L. do 3 (destruct n' as [|n']; [lia|]). reflexivity.
    - intros. cbn [run]. rewrite eval_ast. destruct (meaning vars op s); [left|]; reflexivity. }
  destruct (compiler_of _); try discriminate; try exact B.
  exists (XIfElse (ast s) (XExpr (ECall1 MsvcAssume (EConst false))) y). split.
  - apply (parse_ifelse (text true s) (ast s) [Fn MsvcAssume; LPar; KFalse; RPar; Semi]); [apply parse_plain| |exact K].
    exists 5%nat. intros n' rest L. do 5 (destruct n' as [|n']; [lia|]). reflexivity.
  - intros. cbn [run]. rewrite eval_ast. destruct (meaning vars op s); [left|]; reflexivity.
Qed.
Lemma stmt_brace n r : parse_stmt (S n) (LBrace :: r) = match parse_list n r with Some (l, r) => Some (XBlock l, r) | None => None end.
Proof. reflexivity. Qed.
Lemma list_if n r : parse_list (S n) (KIf :: r) =
  match parse_stmt n (KIf :: r) with Some (s, r) => match parse_list n r with Some (l, r) => Some (XCons s l, r) | None => None end | None => None end.
Proof. reflexivity. Qed.
Lemma list_semi n r : parse_list (S (S n)) (Semi :: r) = match parse_list (S n) r with Some (l, r) => Some (XCons XNull l, r) | None => None end.
Proof. reflexivity. Qed.
Lemma list_else n r : parse_list n (KElse :: r) = None.
Proof. destruct n as [|[|[|[|n]]]]; reflexivity. Qed.
Lemma stmt_if n r : parse_stmt (S n) (KIf :: LPar :: r) =
  match parse_expr n r with
  | Some (e, RPar :: r) =>
    match parse_stmt n r with
    | Some (s, KElse :: r) => match parse_stmt n r with Some (t, r) => Some (XIfElse e s t, r) | None => None end
    | Some (s, r) => Some (XIf e s, r)
    | None => None
    end
  | _ => None
  end.
Proof. reflexivity. Qed.
Lemma stmt_throw n r : parse_stmt (S n) (KThrow :: KUnreachableError :: LBrace :: RBrace :: Semi :: r) = Some (XThrow, r).
Proof. reflexivity. Qed.
Theorem C121_unreachable_else_refuted : forall t s k, throws t = true ->
  exists m, forall n, (m <= n)%nat -> parse_stmt n (LBrace :: KIf :: LPar :: text true s ++ RPar :: Unreachable t ++ Semi :: KElse :: k) = None.
Proof.
  intros t s k F. assert (E : Unreachable t = [KThrow; KUnreachableError; LBrace; RBrace; Semi]).
  { unfold throws in F. unfold Unreachable. destruct (defined _ _); [reflexivity|]. destruct (compiler_of _); try discriminate. reflexivity. }
  rewrite E. destruct (parse_plain s) as (n0 & H). exists (8 + n0)%nat. intros n L. do 8 (destruct n as [|n]; [lia|]).
  cbn [app]. rewrite stmt_brace, list_if, stmt_if. rewrite H by lia. rewrite stmt_throw, list_semi, list_else. reflexivity.
Qed.

(** NAZARA_IS_CONSTEVAL and NAZARA_IS_RUNTIME_EVAL before a block in braces tell constant evaluation from run time wherever NAZARA_CONSTEXPR20 is constexpr, and at run
    time everywhere. *)
Lemma parse_block k l : block k l -> closed (LBrace :: k ++ [RBrace]) (XBlock l).
Proof. intros (n & H). exists (S n). intros [|n'] rest L; [lia|]. cbn [app parse_stmt]. rewrite <- app_assoc. cbn [app]. rewrite H by lia. reflexivity. Qed.
Lemma closed_statement k x : closed k x -> statement k x.
Proof. intros (n & H). exists n. intros n' rest L _. now apply H. Qed.
Theorem C121_consteval : forall t k l k2 l2, block k l -> block k2 l2 ->
  exists z, statement (KIf :: IsConsteval t ++ (LBrace :: k ++ [RBrace]) ++ KElse :: LBrace :: k2 ++ [RBrace]) z /\
    forall vars op ce out, ce = false \/ Constexpr20 t = true -> run vars op ce z out = if ce then run vars op ce (XBlock l) out else run vars op ce (XBlock l2) out.
Proof.
  intros t k l k2 l2 K K2. unfold IsConsteval, Constexpr20. pose proof (closed_statement _ _ (parse_block k2 l2 K2)) as S2. pose proof (parse_block k l K) as S1. destruct (evaluation_of _).
  - exists (XConstevalElse false (XBlock l) (XBlock l2)). split; [|intros vars op [] out C; reflexivity].
    destruct K as (n & H), S2 as (m & H2). exists (2 + n + m)%nat. intros n' rest L B. do 2 (destruct n' as [|n']; [lia|]). cbn [app]. rewrite <- !app_assoc. cbn [app parse_stmt parse_consteval].
    rewrite H by lia. cbn [app] in H2. rewrite <- app_assoc. specialize (H2 n' rest ltac:(lia) B). rewrite <- app_assoc in H2. cbn [app] in *. rewrite H2. reflexivity.
  - eexists. split; [apply (parse_ifelse [Fn StdIsConstantEvaluated; LPar; RPar] (ECall0 StdIsConstantEvaluated)); [|exact S1|exact S2]|].
    + exists 2%nat. intros n' rest L. do 2 (destruct n' as [|n']; [lia|]). reflexivity.
    + intros vars op [] out C; reflexivity.
  - eexists. split; [apply (parse_ifelse [Fn BuiltinIsConstantEvaluated; LPar; RPar] (ECall0 BuiltinIsConstantEvaluated)); [|exact S1|exact S2]|].
    + exists 2%nat. intros n' rest L. do 2 (destruct n' as [|n']; [lia|]). reflexivity.
    + intros vars op [] out C; reflexivity.
  - eexists. split; [apply (parse_ifelse [KFalse] (EConst false)); [|exact S1|exact S2]|].
    + exists 2%nat. intros n' rest L. do 2 (destruct n' as [|n']; [lia|]). reflexivity.
    + intros vars op [] out [C|C]; try discriminate C; reflexivity.
Qed.
Theorem C121_runtime : forall t k l k2 l2, block k l -> block k2 l2 ->
  exists z, statement (KIf :: IsRuntimeEval t ++ (LBrace :: k ++ [RBrace]) ++ KElse :: LBrace :: k2 ++ [RBrace]) z /\
    forall vars op ce out, ce = false \/ Constexpr20 t = true -> run vars op ce z out = if ce then run vars op ce (XBlock l2) out else run vars op ce (XBlock l) out.
Proof.
  intros t k l k2 l2 K K2. unfold IsRuntimeEval, Constexpr20. pose proof (closed_statement _ _ (parse_block k2 l2 K2)) as S2. pose proof (parse_block k l K) as S1. destruct (evaluation_of _).
  - exists (XConstevalElse true (XBlock l) (XBlock l2)). split; [|intros vars op [] out C; reflexivity].
    destruct K as (n & H), S2 as (m & H2). exists (2 + n + m)%nat. intros n' rest L B. do 2 (destruct n' as [|n']; [lia|]). cbn [app]. rewrite <- !app_assoc. cbn [app parse_stmt parse_consteval].
    rewrite H by lia. cbn [app] in H2. rewrite <- app_assoc. specialize (H2 n' rest ltac:(lia) B). rewrite <- app_assoc in H2. cbn [app] in *. rewrite H2. reflexivity.
  - eexists. split; [apply (parse_ifelse [Not; Fn StdIsConstantEvaluated; LPar; RPar] (ENot (ECall0 StdIsConstantEvaluated))); [|exact S1|exact S2]|].
    + exists 3%nat. intros n' rest L. do 3 (destruct n' as [|n']; [lia|]). reflexivity.
    + intros vars op [] out C; reflexivity.
  - eexists. split; [apply (parse_ifelse [Not; Fn BuiltinIsConstantEvaluated; LPar; RPar] (ENot (ECall0 BuiltinIsConstantEvaluated))); [|exact S1|exact S2]|].
    + exists 3%nat. intros n' rest L. do 3 (destruct n' as [|n']; [lia|]). reflexivity.
    + intros vars op [] out C; reflexivity.
  - eexists. split; [apply (parse_ifelse [KTrue] (EConst true)); [|exact S1|exact S2]|].
    + exists 2%nat. intros n' rest L. do 2 (destruct n' as [|n']; [lia|]). reflexivity.
    + intros vars op [] out [C|C]; try discriminate C; reflexivity.
Qed.
(** Without else. *)
Theorem C121_consteval_alone : forall t k l, block k l -> exists z, statement (KIf :: IsConsteval t ++ LBrace :: k ++ [RBrace]) z /\
  forall vars op ce out, ce = false \/ Constexpr20 t = true -> run vars op ce z out = if ce then run vars op ce (XBlock l) out else Some (Done out).
Proof.
  intros t k l K. unfold IsConsteval, Constexpr20. pose proof (closed_statement _ _ (parse_block k l K)) as S1. destruct (evaluation_of _).
  - exists (XConsteval false (XBlock l)). split; [|intros vars op [] out C; reflexivity].
    destruct K as (n & H). exists (2 + n)%nat. intros n' rest L B. do 2 (destruct n' as [|n']; [lia|]). cbn [app]. rewrite <- !app_assoc. cbn [app parse_stmt parse_consteval]. rewrite H by lia. destruct rest as [|[] rest]; try reflexivity. discriminate.
  - eexists. split; [apply (parse_if [Fn StdIsConstantEvaluated; LPar; RPar] (ECall0 StdIsConstantEvaluated)); [|exact S1]|].
    + exists 2%nat. intros n' rest L. do 2 (destruct n' as [|n']; [lia|]). reflexivity.
    + intros vars op [] out C; reflexivity.
  - eexists. split; [apply (parse_if [Fn BuiltinIsConstantEvaluated; LPar; RPar] (ECall0 BuiltinIsConstantEvaluated)); [|exact S1]|].
    + exists 2%nat. intros n' rest L. do 2 (destruct n' as [|n']; [lia|]). reflexivity.
    + intros vars op [] out C; reflexivity.
  - eexists. split; [apply (parse_if [KFalse] (EConst false)); [|exact S1]|].
    + exists 2%nat. intros n' rest L. do 2 (destruct n' as [|n']; [lia|]). reflexivity.
    + intros vars op [] out [C|C]; try discriminate C; reflexivity.
Qed.
Theorem C121_runtime_alone : forall t k l, block k l -> exists z, statement (KIf :: IsRuntimeEval t ++ LBrace :: k ++ [RBrace]) z /\
  forall vars op ce out, ce = false \/ Constexpr20 t = true -> run vars op ce z out = if ce then Some (Done out) else run vars op ce (XBlock l) out.
Proof.
  intros t k l K. unfold IsRuntimeEval, Constexpr20. pose proof (closed_statement _ _ (parse_block k l K)) as S1. destruct (evaluation_of _).
  - exists (XConsteval true (XBlock l)). split; [|intros vars op [] out C; reflexivity].
    destruct K as (n & H). exists (2 + n)%nat. intros n' rest L B. do 2 (destruct n' as [|n']; [lia|]). cbn [app]. rewrite <- !app_assoc. cbn [app parse_stmt parse_consteval]. rewrite H by lia. destruct rest as [|[] rest]; try reflexivity. discriminate.
  - eexists. split; [apply (parse_if [Not; Fn StdIsConstantEvaluated; LPar; RPar] (ENot (ECall0 StdIsConstantEvaluated))); [|exact S1]|].
    + exists 3%nat. intros n' rest L. do 3 (destruct n' as [|n']; [lia|]). reflexivity.
    + intros vars op [] out C; reflexivity.
  - eexists. split; [apply (parse_if [Not; Fn BuiltinIsConstantEvaluated; LPar; RPar] (ENot (ECall0 BuiltinIsConstantEvaluated))); [|exact S1]|].
    + exists 3%nat. intros n' rest L. do 3 (destruct n' as [|n']; [lia|]). reflexivity.
    + intros vars op [] out C; reflexivity.
  - eexists. split; [apply (parse_if [KTrue] (EConst true)); [|exact S1]|].
    + exists 2%nat. intros n' rest L. do 2 (destruct n' as [|n']; [lia|]). reflexivity.
    + intros vars op [] out [C|C]; try discriminate C; reflexivity.
Qed.
(** The functions and attributes the compilers and the language have. *)
Definition regular (t : target) : Prop := 0 <= value (macros t) "__clang_minor__" < 100 /\ 0 <= value (macros t) "__GNUC_MINOR__" < 100.
Definition provides (t : target) (f : fn) : Prop :=
  match f, compiler_of (macros t) with
  | StdIsConstantEvaluated, _ => 202002 <= CppVer (macros t)
  | BuiltinIsConstantEvaluated, Clang => 9 <= value (macros t) "__clang_major__"
  | BuiltinIsConstantEvaluated, Gcc => 9 <= value (macros t) "__GNUC__"
  | BuiltinIsConstantEvaluated, Msvc => 1925 <= value (macros t) "_MSC_VER"
  | BuiltinExpect, (Clang | Gcc | Icc) => True
  | BuiltinUnreachable, (Clang | Gcc | Icc) => True
  | BuiltinAssume, Clang => True
  | MsvcAssume, Msvc => True
  | _, _ => False
  end.
Lemma evaluation_provided t : regular t ->
  match evaluation_of (macros t) with
  | IfConsteval => 202302 <= CppVer (macros t)
  | StdFunction => provides t StdIsConstantEvaluated
  | Builtin => provides t BuiltinIsConstantEvaluated
  | NoConsteval => ~ provides t StdIsConstantEvaluated /\ ~ provides t BuiltinIsConstantEvaluated
  end.
Proof.
  intros (R1 & R2). unfold evaluation_of, provides, CheckCppVer, CheckMsvcVer, CheckClangVer, CheckGccVer, CPP23, CPP20. destruct (Z.leb_spec 202302 (CppVer (macros t))); [assumption|]. destruct (Z.leb_spec 202002 (CppVer (macros t))); [assumption|].
  destruct (compiler_of (macros t)); cbn [orb]; rewrite ?Bool.orb_false_r; try match goal with |- context [Z.leb ?a ?b] => destruct (Z.leb_spec a b) end; split || idtac; lia.
Qed.
(** Every function the expansions call is one the compiler has, and constant evaluation is told from run time exactly where there is a way to. *)
Theorem C121_provided : forall t b f, regular t -> In (Fn f) (IsConsteval t ++ IsRuntimeEval t ++ Assume t [] ++ Expect t b [] ++ Unreachable t) -> provides t f.
Proof.
  intros t b f R H. pose proof (evaluation_provided t R) as E. repeat (apply in_app_or in H; destruct H as [H|H]).
  - unfold IsConsteval in H. destruct (evaluation_of _); cbn [In] in H; repeat (destruct H as [H|H]; try discriminate H); try contradiction; injection H as <-; exact E.
  - unfold IsRuntimeEval in H. destruct (evaluation_of _); cbn [In] in H; repeat (destruct H as [H|H]; try discriminate H); try contradiction; injection H as <-; exact E.
  - unfold Assume in H. destruct (defined _ _); [destruct H|]. destruct (_ || _)%bool; [cbn [app In] in H; repeat (destruct H as [H|H]; try discriminate H); contradiction|]. unfold provides. destruct (compiler_of _); try (destruct (13 <=? _)); cbn [app In] in H; repeat (destruct H as [H|H]; try discriminate H); try contradiction; injection H as <-; exact Logic.I.
  - unfold Expect in H. destruct (defined _ _); [cbn [app In] in H; repeat (destruct H as [H|H]; try discriminate H); contradiction|]. destruct (CheckCppVer _ _ || _)%bool; [cbn [app In] in H; repeat (destruct H as [H|H]; try discriminate H); contradiction|]. unfold provides. destruct (compiler_of _); cbn [app In] in H; repeat (destruct H as [H|H]; try discriminate H); try contradiction; injection H as <-; exact Logic.I.
  - unfold Unreachable in H. destruct (defined _ _); [cbn [In] in H; repeat (destruct H as [H|H]; try discriminate H); contradiction|]. unfold provides. destruct (compiler_of _); cbn [In] in H; repeat (destruct H as [H|H]; try discriminate H); try contradiction; injection H as <-; exact Logic.I.
Qed.
Theorem C121_constexpr20 : forall t, regular t -> (Constexpr20 t = true <-> provides t StdIsConstantEvaluated \/ provides t BuiltinIsConstantEvaluated).
Proof.
  intros t R. pose proof (evaluation_provided t R) as E. unfold Constexpr20. destruct (evaluation_of _); split; auto; try discriminate; try tauto. intros _. left. unfold provides. lia.
Qed.
(** The attributes are used where the language or the compiler has them. *)
Theorem C121_attributes : forall t b c, (In (ALikely c) (Expect t b []) -> c = b /\ (202002 <= CppVer (macros t) \/ HasCppAttribute t (if c then "likely" else "unlikely") = true)) /\
  (In LAttr (Assume t []) -> 202302 <= CppVer (macros t) \/ HasCppAttribute t "assume" = true).
Proof.
  intros t b c. split; intros H.
  - unfold Expect in H. destruct (defined _ _); [cbn [app In] in H; repeat (destruct H as [H|H]; try discriminate H); contradiction|].
    destruct (CheckCppVer (macros t) CPP20) eqn:V; cbn [orb] in H.
    + cbn [app In] in H. repeat (destruct H as [H|H]; try discriminate H); try contradiction. injection H as <-. split; [reflexivity|]. left. apply Z.leb_le. exact V.
    + destruct (HasCppAttribute t (if b then "likely" else "unlikely")) eqn:A; [|destruct (compiler_of _); cbn [app In] in H; repeat (destruct H as [H|H]; try discriminate H); contradiction]. cbn [app In] in H. repeat (destruct H as [H|H]; try discriminate H); try contradiction. injection H as <-. auto.
  - unfold Assume in H. destruct (defined _ _); [destruct H|]. destruct (CheckCppVer (macros t) CPP23) eqn:V; [left; apply Z.leb_le; exact V|]. cbn [orb] in H. destruct (HasCppAttribute t "assume"); [now right|]. destruct (compiler_of _); try (destruct (13 <=? _)); cbn [app In] in H; repeat (destruct H as [H|H]; try discriminate H); contradiction.
Qed.
(** From C++23 on a statement without braces after them is an error. *)
Theorem C121_braces_refuted : forall t k n, 202302 <= CppVer (macros t) -> match k with LBrace :: _ => False | _ => True end ->
  parse_stmt n (KIf :: IsConsteval t ++ k) = None /\ parse_stmt n (KIf :: IsRuntimeEval t ++ k) = None.
Proof.
  intros t k n V B. assert (E : evaluation_of (macros t) = IfConsteval).
  { unfold evaluation_of, CheckCppVer, CPP23. destruct (Z.leb_spec 202302 (CppVer (macros t))); [reflexivity|lia]. }
  unfold IsConsteval, IsRuntimeEval. rewrite E. destruct n as [|[|[|n]]]; [split; reflexivity| | | ]; (destruct k as [|[] k]; try contradiction; split; reflexivity).
Qed.
(** Where the compiler has none of the three, code that is evaluated at compile time all the same (a function declared constexpr and not NAZARA_CONSTEXPR20:
    NumberEquals, Mod) takes the path for run time. *)
Theorem C121_constant_refuted : forall t k l k2 l2, Constexpr20 t = false -> block k l -> block k2 l2 ->
  exists z, statement (KIf :: IsRuntimeEval t ++ (LBrace :: k ++ [RBrace]) ++ KElse :: LBrace :: k2 ++ [RBrace]) z /\
    forall vars op out, run vars op true z out = run vars op true (XBlock l) out.
Proof.
  intros t k l k2 l2 C K K2. unfold IsRuntimeEval. unfold Constexpr20 in C. destruct (evaluation_of _); try discriminate.
  eexists. split; [apply (parse_ifelse [KTrue] (EConst true)); [|exact (parse_block k l K)|exact (closed_statement _ _ (parse_block k2 l2 K2))]|].
  - exists 2%nat. intros n' rest L. do 2 (destruct n' as [|n']; [lia|]). reflexivity.
  - reflexivity.
Qed.

(** NazaraUnused of a name or a negation is a statement without effect, of an expression with an operator it does not compile. *)
Theorem C121_unused_partial : forall s, match s with SBin _ _ => False | _ => True end ->
  exists x, closed (Unused (text true s) ++ [Semi]) x /\ forall vars op ce out, goes_on (run vars op ce x out) out.
Proof.
  intros s B. exists (XExpr (EVoid (ast s))). split; [|intros; unfold goes_on; cbn [run eval]; rewrite eval_ast; reflexivity].
  destruct (proj1 (parse_text s)) as (n & H). replace (text true s) with (text false s) by (destruct s; [reflexivity|reflexivity|contradiction]).
  exists (3 + n)%nat. intros n' rest L. do 3 (destruct n' as [|n']; [lia|]). unfold Unused. cbn [app]. rewrite <- app_assoc. cbn [app parse_stmt parse_expr parse_unary]. rewrite H by lia. reflexivity.
Qed.
Theorem C121_unused_refuted : forall a b, exists x, closed (Unused (text true (SBin a b)) ++ [Semi]) x /\ forall vars op ce out, run vars op ce x out = None.
Proof.
  intros a b. exists (XExpr (EBin (EVoid (ast a)) (ast b))). split; [|intros; cbn [run eval]; rewrite eval_ast; reflexivity].
  destruct (proj1 (parse_text a)) as (n & H), (parse_top b) as (m & K).
  exists (4 + n + m)%nat. intros n' rest L. do 3 (destruct n' as [|n']; [lia|]). unfold Unused. cbn [text app]. rewrite <- !app_assoc. cbn [app parse_stmt]. rewrite <- ?app_assoc. cbn [app].
  cbn [parse_expr parse_unary]. rewrite H by lia. change (parse_expr (S n')) with (parse_expr (S n')).
  pose proof (K (S n') (Semi :: rest) ltac:(lia) eq_refl) as K'. cbn [app] in K'. cbn [parse_expr] in K'. rewrite K'. reflexivity.
Qed.

(** ** Non-vacuity *)
Definition of_list (l : list (string * Z)) : env := fun x => match find (fun p => String.eqb (fst p) x) l with Some p => Some (snd p) | None => None end.
Definition gcc7 := Target (of_list [("__GNUC__", 7); ("__GNUC_MINOR__", 5); ("__cplusplus", 201703)]) (Some (fun _ => 0)).
Definition clang17 := Target (of_list [("__clang__", 1); ("__clang_major__", 17); ("__clang_minor__", 0); ("__cplusplus", 202002)]) (Some (fun a => if String.eqb a "likely" || String.eqb a "unlikely" then 201803 else 0)).
Definition msvc := Target (of_list [("_MSC_VER", 1940); ("_MSVC_LANG", 202302); ("__cplusplus", 199711)]) None.
(** icpc 2021 with the headers of GCC 13 *)
Definition icpc := Target (of_list [("__INTEL_COMPILER", 2021); ("__GNUC__", 13); ("__GNUC_MINOR__", 1); ("__cplusplus", 201703)]) (Some (fun _ => 0)).
Definition unknown := Target (of_list [("__cplusplus", 201703)]) None.
Example C121_forms :
  Expect gcc7 true [Var 1] = [LPar; Fn BuiltinExpect; LPar; Not; Not; LPar; Var 1; RPar; Comma; Num true; RPar; RPar] /\
  Expect clang17 false [Var 1] = [LPar; Var 1; RPar; LAttr; ALikely false; RAttr] /\ Expect unknown true [Var 1] = [LPar; Var 1; RPar] /\
  Assume gcc7 [Var 1] = [] /\ Assume clang17 [Var 1] = [Fn BuiltinAssume; LPar; Var 1; RPar] /\ Assume msvc [Var 1] = [LAttr; AAssume; LPar; Var 1; RPar; RAttr] /\
  Assume icpc [Var 1] = [KAttribute; LPar; AAssume; LPar; Var 1; RPar; RPar] /\
  map evaluation_of [macros gcc7; macros clang17; macros msvc; macros icpc; macros unknown] = [NoConsteval; StdFunction; IfConsteval; Builtin; NoConsteval].
Proof. vm_compute. repeat split. Qed.
Example C121_hypotheses : gcc_form gcc7 = false /\ gcc_form clang17 = false /\ gcc_form icpc = true /\ throws msvc = false /\ throws unknown = true /\ Constexpr20 gcc7 = false /\ Constexpr20 msvc = true.
Proof. vm_compute. repeat split. Qed.
Example C121_regular : regular gcc7 /\ regular clang17 /\ regular msvc /\ regular icpc /\ regular unknown.
Proof. unfold regular. vm_compute. repeat split; discriminate. Qed.
Example C121_mark : closed [Var 3; Semi] (XExpr (EVar 3)) /\ block [Var 3; Semi] (XCons (XExpr (EVar 3)) XNil).
Proof. split; [exists 3%nat|exists 4%nat]; intros n' rest L; do 3 (destruct n' as [|n']; [lia|]); [reflexivity|]. destruct n' as [|n']; [lia|]. reflexivity. Qed.
(** if NAZARA_LIKELY(v1 = !v2) v7; else v8; and if NAZARA_IS_CONSTEVAL() { v7; } else { v8; } *)
Example C121_run :
  (forall t, In t [gcc7; clang17; msvc; icpc; unknown] ->
     match parse_stmt 40 (KIf :: Expect t true (text true (SBin (SVar 1) (SNot (SVar 2)))) ++ [Var 7; Semi; KElse; Var 8; Semi]) with
     | Some (x, []) => run (fun n => Nat.eqb n 1) (fun a b => b) false x [] = Some (Done [7%nat]) /\ run (fun n => Nat.eqb n 2) (fun a b => b) false x [] = Some (Done [8%nat])
     | _ => False
     end) /\
  (forall t, In t [clang17; msvc; icpc] ->
     match parse_stmt 40 (KIf :: IsConsteval t ++ [LBrace; Var 7; Semi; RBrace; KElse; LBrace; Var 8; Semi; RBrace]) with
     | Some (x, []) => run (fun _ => true) andb true x [] = Some (Done [7%nat]) /\ run (fun _ => true) andb false x [] = Some (Done [8%nat])
     | _ => False
     end).
Proof. split; intros t I; cbn [In] in I; repeat destruct I as [<-|I]; try contradiction; vm_compute; split; reflexivity. Qed.

Print Assumptions C121_likely.
Print Assumptions C121_likely_else.
Print Assumptions C121_assume_partial.
Print Assumptions C121_assume_refuted.
Print Assumptions C121_unreachable.
Print Assumptions C121_unreachable_else_partial.
Print Assumptions C121_unreachable_else_refuted.
Print Assumptions C121_consteval.
Print Assumptions C121_runtime.
Print Assumptions C121_braces_refuted.
Print Assumptions C121_constant_refuted.
Print Assumptions C121_consteval_alone.
Print Assumptions C121_runtime_alone.
Print Assumptions C121_provided.
Print Assumptions C121_constexpr20.
Print Assumptions C121_attributes.
Print Assumptions C121_unused_partial.
Print Assumptions C121_unused_refuted.
