(** Property C105: NazaraAssert in programs. *)
From Verif Require Import Base AssertModel.

Section State.
Context {State : Type}.
Notation src := (src State). Notation srcs := (srcs State). Notation stmt := (stmt State). Notation stmts := (stmts State).

(** What a program means: an assertion evaluates its condition and stops the program if it is false; when compiled out, nothing. *)
Fixpoint meaning (on : bool) (s : src) (st : State) : outcome State :=
  match s with
  | SExpr e => e st
  | SAssert c => if on then (' (st, b) <- c st ;; if b : bool then Done st else Fault FAssert) else Done st
  | SIf c s => ' (st, b) <- c st ;; if b : bool then meaning on s st else Done st
  | SIfElse c s t => ' (st, b) <- c st ;; if b : bool then meaning on s st else meaning on t st
  | SBlock l => meanings on l st
  end
with meanings (on : bool) (l : srcs) (st : State) : outcome State :=
  match l with SNil => Done st | SCons s l => st <- meaning on s st ;; meanings on l st end.

(** Programs whose else belong to the intended if: the statement before an else does not end with an if without else... *)
Fixpoint ends_with_if (assert_too : bool) (s : src) : bool :=
  match s with SExpr _ => false | SAssert _ => assert_too | SIf _ _ => true | SIfElse _ _ t => ends_with_if assert_too t | SBlock _ => false end.
Fixpoint unambiguous (assert_too : bool) (s : src) : bool :=
  match s with
  | SExpr _ | SAssert _ => true
  | SIf _ s => unambiguous assert_too s
  | SIfElse _ s t => negb (ends_with_if assert_too s) && unambiguous assert_too s && unambiguous assert_too t
  | SBlock l => unambiguous_list assert_too l
  end
with unambiguous_list (assert_too : bool) (l : srcs) : bool := match l with SNil => true | SCons s l => unambiguous assert_too s && unambiguous_list assert_too l end.

Scheme src_mind := Induction for AssertModel.src Sort Prop with srcs_mind := Induction for AssertModel.srcs Sort Prop.
Combined Scheme src_both from src_mind, srcs_mind.

Definition begins_with_else (k : list (tok State)) : bool := match k with KElse :: _ => true | _ => false end.
Definition means (on : bool) (x : stmt) (s : src) : Prop := forall st, run x st = meaning on s st.
Definition means_list (on : bool) (x : stmts) (s : srcs) : Prop := forall st, run_list x st = meanings on s st.

Lemma tokens_not_close on (s : src) : match tokens on s with KClose :: _ | [] => False | _ => True end.
Proof. destruct s; cbn; trivial. destruct on; exact I. Qed.
Lemma parse_list_step n (k : list (tok State)) : match k with KClose :: _ | [] => False | _ => True end ->
  parse_list (S n) k = match parse n k with Some (s, r) => match parse_list n r with Some (l, r) => Some (XCons s l, r) | None => None end | None => None end.
Proof. destruct k as [|[| | | | | | |] k]; intros H; try destruct H; reflexivity. Qed.
Lemma tokens_parse on :
  (forall s : src, unambiguous on s = true -> forall rest, ends_with_if on s = false \/ begins_with_else rest = false ->
     exists n x, means on x s /\ forall n', (n <= n')%nat -> parse n' (tokens on s ++ rest) = Some (x, rest)) /\
  (forall l : srcs, unambiguous_list on l = true -> forall rest,
     exists n x, means_list on x l /\ forall n', (n <= n')%nat -> parse_list n' (tokens_list on l ++ KClose :: rest) = Some (x, rest)).
Proof.
  apply src_both.
  - intros e _ rest _. exists 1%nat, (XExpr e). split; [intros st; reflexivity|]. intros [|n'] L; [lia|]. reflexivity.
  - intros c _ rest H. destruct on; cbn in H.
    + destruct H as [H|H]; [discriminate|]. exists 2%nat, (XIf (negate c) (XExpr failure)). split.
      * intros st. cbn. unfold negate, failure. destruct (c st) as [(st', b)|f]; [|reflexivity]. cbn. now destruct b.
      * intros [|[|n']] L; try lia. cbn [tokens expansion app parse]. destruct rest as [|[| | | | | | |] rest]; try reflexivity. discriminate.
    + exists 4%nat, (XDoOnce (XBlock XNil)). split; [intros st; reflexivity|]. intros [|[|[|n']]] L; try lia. reflexivity.
  - intros c s IH U rest H. cbn in H. assert (B : begins_with_else rest = false) by (destruct H; [discriminate | assumption]).
    destruct (IH U rest (or_intror B)) as (n & x & M & P). exists (S n), (XIf c x). split.
    + intros st. cbn. destruct (c st) as [(st', b)|f]; [|reflexivity]. cbn. destruct b; [apply M | reflexivity].
    + intros [|n'] L; [lia|]. cbn [tokens app parse]. rewrite P by lia. destruct rest as [|[| | | | | | |] rest]; try reflexivity. discriminate.
  - intros c s IHs t IHt U rest H. cbn in U, H. apply andb_prop in U as (U & Ut). apply andb_prop in U as (E & Us). apply negb_true_iff in E.
    destruct (IHt Ut rest H) as (nt & xt & Mt & Pt). destruct (IHs Us (KElse :: tokens on t ++ rest) (or_introl E)) as (ns & xs & Ms & Ps).
    exists (S (Nat.max ns nt)), (XIfElse c xs xt). split.
    + intros st. cbn. destruct (c st) as [(st', b)|f]; [|reflexivity]. cbn. destruct b; [apply Ms | apply Mt].
    + intros [|n'] L; [lia|]. cbn [tokens app parse]. rewrite <- app_assoc. cbn [app]. rewrite Ps by lia. rewrite Pt by lia. reflexivity.
  - intros l IH U rest _. destruct (IH U rest) as (n & x & M & P). exists (S n), (XBlock x). split; [exact M|].
    intros [|n'] L; [lia|]. cbn [tokens app parse]. rewrite <- app_assoc. cbn [app]. rewrite P by lia. reflexivity.
  - intros _ rest. exists 1%nat, XNil. split; [intros st; reflexivity|]. intros [|n'] L; [lia|]. reflexivity.
  - intros s IHs l IHl U rest. cbn in U. apply andb_prop in U as (Us & Ul). destruct (IHl Ul rest) as (nl & xl & Ml & Pl).
    assert (B : begins_with_else (tokens_list on l ++ KClose :: rest) = false).
    { destruct l as [|t l]; [reflexivity|]. cbn [tokens_list]. destruct t; cbn; trivial. now destruct on. }
    destruct (IHs Us _ (or_intror B)) as (ns & xs & Ms & Ps). exists (S (Nat.max ns nl)), (XCons xs xl). split.
    + intros st. cbn. rewrite Ms. destruct (meaning on s st) as [st'|f]; [|reflexivity]. cbn. apply Ml.
    + intros [|n'] L; [lia|]. change (tokens_list on (SCons s l)) with (tokens on s ++ tokens_list on l). rewrite <- app_assoc. specialize (Ps n' ltac:(lia)). specialize (Pl n' ltac:(lia)).
      pose proof (tokens_not_close on s) as NC. destruct (tokens on s) as [|k ks]; [destruct NC|]. cbn [app] in *. rewrite parse_list_step by (destruct k; (exact I || exact NC)). rewrite Ps, Pl. reflexivity.
Qed.

(** ** C105 *)
(** A program without ambiguous else, assertions counting as an if when they are compiled in, is parsed as intended; *)
Theorem C105_expansion : forall on (s : src), unambiguous on s = true ->
  exists n x, parse n (tokens on s) = Some (x, []) /\ forall st, run x st = meaning on s st.
Proof.
  intros on s U. destruct (proj1 (tokens_parse on) s U [] (or_intror eq_refl)) as (n & x & M & P). exists n, x. split; [|exact M]. specialize (P n (le_n n)). now rewrite app_nil_r in P.
Qed.
(** and then, if the conditions of assertions have no side effects, every run in which no assertion fails is the same without assertions. *)
Inductive pure_assertions : src -> Prop :=
  | P_expr e : pure_assertions (SExpr e)
  | P_assert c : (forall st, exists b, c st = Done (st, b)) -> pure_assertions (SAssert c)
  | P_if c s : pure_assertions s -> pure_assertions (SIf c s)
  | P_ifelse c s t : pure_assertions s -> pure_assertions t -> pure_assertions (SIfElse c s t)
  | P_block l : pure_list l -> pure_assertions (SBlock l)
with pure_list : srcs -> Prop :=
  | P_nil : pure_list SNil
  | P_cons s l : pure_assertions s -> pure_list l -> pure_list (SCons s l).
Theorem C105_no_effect : forall s, pure_assertions s -> forall st st', meaning true s st = Done st' -> meaning false s st = Done st'.
Proof.
  assert (K : (forall s, pure_assertions s -> forall st st', meaning true s st = Done st' -> meaning false s st = Done st') /\
              (forall l, pure_list l -> forall st st', meanings true l st = Done st' -> meanings false l st = Done st')).
  { apply src_both.
    - trivial.
    - intros c P st st' E. inversion P as [|? H| | |]; subst. cbn in E |- *. destruct (H st) as (b & C). rewrite C in E. cbn in E. destruct b; [exact E | discriminate].
    - intros c s IH P st st' E. inversion P; subst. cbn in E |- *. destruct (c st) as [(st1, b)|f]; [|discriminate]. cbn in E |- *. destruct b; [now apply IH | exact E].
    - intros c s IHs t IHt P st st' E. inversion P; subst. cbn in E |- *. destruct (c st) as [(st1, b)|f]; [|discriminate]. cbn in E |- *. destruct b; [now apply IHs | now apply IHt].
    - intros l IH P st st' E. inversion P; subst. now apply IH.
    - trivial.
    - intros s IHs l IHl P st st' E. inversion P; subst. cbn in E |- *. destruct (meaning true s st) as [st1|f] eqn:S1; [|discriminate]. rewrite (IHs H1 _ _ S1). cbn in E |- *. now apply IHl. }
  apply K.
Qed.
(** But an assertion directly before an else takes the else: for all conditions and statements, "if (a) NazaraAssert(b); else t" runs t when a and b hold, and not when a fails. *)
Theorem C105_else_refuted : forall (a b : cond State) (t : expr State),
  let program := SIfElse a (SAssert b) (SExpr t) in
  unambiguous false program = true /\ unambiguous true program = false /\
  exists x, (forall n, (3 <= n)%nat -> parse n (tokens true program) = Some (x, [])) /\
    (forall st st1, a st = Done (st1, false) -> run x st = Done st1 /\ meaning true program st = t st1) /\
    (forall st st1 st2, a st = Done (st1, true) -> b st1 = Done (st2, true) -> run x st = t st2 /\ meaning true program st = Done st2).
Proof.
  intros a b t program. split; [reflexivity|]. split; [reflexivity|]. exists (XIf a (XIfElse (negate b) (XExpr failure) (XExpr t))). split; [|split].
  - intros [|[|[|n]]] L; try lia. reflexivity.
  - intros st st1 A. cbn. rewrite A. now split.
  - intros st st1 st2 A B. cbn. rewrite A. cbn. unfold negate. rewrite B. now split.
Qed.
(** In braces it does what it says in every build. *)
Theorem C105_braces : forall on (a b : cond State) (t : expr State), unambiguous on (SIfElse a (SBlock (SCons (SAssert b) SNil)) (SExpr t)) = true.
Proof. reflexivity. Qed.
End State.
(** Assertions are in unless NAZARA_NO_ASSERT is defined, or NDEBUG without NAZARA_ENABLE_ASSERTS. *)
Theorem C105_enabled : forall no enable ndebug, enabled no enable ndebug = false <-> no = true \/ (ndebug = true /\ enable = false).
Proof. intros [] [] []; cbn; intuition discriminate. Qed.
Print Assumptions C105_enabled.
Print Assumptions C105_expansion.
Print Assumptions C105_no_effect.
Print Assumptions C105_else_refuted.
Print Assumptions C105_braces.
Example C105_nonvacuous :
  let even : cond nat := fun st => Done (st, Nat.even st) in let big : cond nat := fun st => Done (st, Nat.ltb 3 st) in let reset : expr nat := fun _ => Done 0 in
  let program := SIfElse even (SAssert big) (SExpr reset) in
  meaning true program 5 = Done 0 /\ meaning true program 4 = Done 4 /\ meaning true program 2 = Fault FAssert /\ meaning false program 2 = Done 2 /\
  match parse 5 (tokens true program) with Some (x, []) => run x 5 = Done 5 /\ run x 4 = Done 0 | _ => False end /\
  match parse 5 (tokens false program) with Some (x, []) => run x 5 = Done 0 /\ run x 4 = Done 4 | _ => False end.
Proof. repeat split; reflexivity. Qed.
(** The configurations: NDEBUG disables assertions unless they are asked for, NAZARA_NO_ASSERT always does. *)
Example C105_configurations : enabled false false false = true /\ enabled false false true = false /\ enabled false true true = true /\ (forall e d, enabled true e d = false).
Proof. repeat split. Qed.
