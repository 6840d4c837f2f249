(** Property C108: NAZARA_DEFER. *)
From Coq Require Import DecimalString DecimalNat DecimalFacts FinFun.
From Verif Require Import DeferModel.

(** ** Specification: "defer e; rest" is "try { rest } finally { e }"; line numbers, names and objects play no part. *)
Section Spec.
Context {State : Type}.
Definition finally (r : outcome (leave * State)) (e : code State) : outcome (leave * State) :=
  ' (k, st) <- r ;; let (st, threw) := e st in if threw : bool then Fault FTerminate else Done (k, st).
(** A loop is left by break, return and exceptions; a break ends there. *)
Fixpoint loop (n : nat) (body : State -> outcome (leave * State)) (st : State) : outcome (leave * State) :=
  match n with
  | O => Done (Falls, st)
  | S n => ' (k, st) <- body st ;; match k with Falls | Continues => loop n body st | Breaks => Done (Falls, st) | _ => Done (k, st) end
  end.
Fixpoint means (s : stmt State) (st : State) : outcome (leave * State) :=
  match s with
  | Do e => let (st, threw) := e st in Done (if threw : bool then Throws else Falls, st)
  | Defer _ e => finally (Done (Falls, st)) e
  | Var _ => Done (Falls, st)
  | Block l => means_list l st
  | IfElse c s t => if c st then means s st else means t st
  | Repeat n s => loop n (means s) st
  | Leave k => Done (k, st)
  end
with means_list (l : stmts State) (st : State) : outcome (leave * State) :=
  match l with
  | SNil => Done (Falls, st)
  | SCons (Defer _ e) l => finally (means_list l st) e
  | SCons s l => ' (k, st) <- means s st ;; match k with Falls => means_list l st | _ => Done (k, st) end
  end.
(** The names a scope declares, from the program text. *)
Fixpoint names (l : stmts State) : list string :=
  match l with SNil => [] | SCons (Defer n _) l => defer_name n :: names l | SCons (Var x) l => x :: names l | SCons _ l => names l end.
Fixpoint clean (s : stmt State) : Prop :=
  match s with Block l => NoDup (names l) /\ clean_list l | IfElse _ s t => clean s /\ clean t | Repeat _ s => clean s | _ => True end
with clean_list (l : stmts State) : Prop := match l with SNil => True | SCons s l => clean s /\ clean_list l end.
Fixpoint append_all (a b : stmts State) : stmts State := match a with SNil => b | SCons s a => SCons s (append_all a b) end.
Fixpoint defers (l : list (nat * code State)) (rest : stmts State) : stmts State :=
  match l with [] => rest | (n, e) :: l => SCons (Defer n e) (defers l rest) end.
(** Run codes in order. *)
Fixpoint run_codes (l : list (code State)) (st : State) : outcome State :=
  match l with [] => Done st | e :: l => let (st, threw) := e st in if threw : bool then Fault FTerminate else run_codes l st end.
End Spec.

Scheme stmt_ind2 := Induction for stmt Sort Prop with stmts_ind2 := Induction for stmts Sort Prop.

Section Proofs.
Context {State : Type}.

(** A scope, run to its end. *)
Definition scoped (r : outcome (leave * list (object State) * State)) : outcome (leave * State) := ' (k, inner, st) <- r ;; st <- destroy_all inner st ;; Done (k, st).

Lemma destroy_all_app a b (st : State) : destroy_all (a ++ b) st = (st <- destroy_all a st ;; destroy_all b st).
Proof. revert st. induction a as [|o a IH]; intros st; cbn; [reflexivity|]. destruct (destroy o st); cbn; [apply IH|reflexivity]. Qed.

Lemma exec_CBlock (l : cstmts State) vars st : exec (CBlock l) vars st = (' (k, inner, st) <- exec_list l [] st ;; st <- destroy_all inner st ;; Done (k, vars, st)).
Proof. reflexivity. Qed.
Lemma exec_CCons s (l : cstmts State) vars st : exec_list (CCons s l) vars st = (' (k, vars, st) <- exec s vars st ;; match k with Falls => exec_list l vars st | _ => Done (k, vars, st) end).
Proof. reflexivity. Qed.
Lemma exec_CIfElse c (s t : cstmt State) vars st : exec (CIfElse c s t) vars st = (' (k, inner, st) <- (if c st then exec s [] st else exec t [] st) ;; st <- destroy_all inner st ;; Done (k, vars, st)).
Proof. reflexivity. Qed.
Lemma exec_CRepeat n (s : cstmt State) vars st : exec (CRepeat n s) vars st =
  (' (k, st) <- repeat_body n (fun st => ' (k, inner, st) <- exec s [] st ;; st <- destroy_all inner st ;; Done (k, st)) st ;; Done (k, vars, st)).
Proof. reflexivity. Qed.
Lemma exec_block (l : cstmts State) vars st : exec (CBlock l) vars st = (' (k, st) <- scoped (exec_list l [] st) ;; Done (k, vars, st)).
Proof. rewrite exec_CBlock. unfold scoped. destruct (exec_list l [] st) as [[[k inner] st1]|]; cbn; [|reflexivity]. destruct (destroy_all inner st1); reflexivity. Qed.

(** The variables already there are kept below the new ones. *)
Definition local (r : outcome (leave * list (object State) * State)) (vars : list (object State)) := ' (k, inner, st) <- r ;; Done (k, inner ++ vars, st).
Lemma exec_frame (s : cstmt State) vars st : exec s vars st = local (exec s [] st) vars.
Proof.
  destruct s as [e|x e|x|l|c s1 s2|n s|k]; rewrite ?exec_CBlock, ?exec_CIfElse, ?exec_CRepeat; unfold local; try reflexivity.
  - cbn. destruct (e st); reflexivity.
  - destruct (exec_list l [] st) as [[[k inner] st1]|]; cbn; [|reflexivity]. destruct (destroy_all inner st1); reflexivity.
  - destruct (if c st then exec s1 [] st else exec s2 [] st) as [[[k inner] st1]|]; cbn; [|reflexivity]. destruct (destroy_all inner st1); reflexivity.
  - destruct (repeat_body _ _ st) as [[k st1]|]; reflexivity.
Qed.
Lemma exec_list_frame (l : cstmts State) : forall vars st, exec_list l vars st = local (exec_list l [] st) vars.
Proof.
  induction l as [|s l IH]; intros vars st; [reflexivity|]. rewrite !exec_CCons, (exec_frame s vars st). unfold local at 1.
  destruct (exec s [] st) as [[[k inner] st1]|]; cbn [bind]; [|reflexivity].
  destruct k; try reflexivity. rewrite (IH (inner ++ vars)), (IH inner). unfold local. destruct (exec_list l [] st1) as [[[k2 inner2] st2]|]; cbn; [|reflexivity]. now rewrite app_assoc.
Qed.

Lemma repeat_ext n f g (st : State) : (forall st, f st = g st) -> repeat_body n f st = loop n g st.
Proof. intros H. revert st. induction n as [|n IH]; intros st; cbn; [reflexivity|]. rewrite H. destruct (g st) as [[k st1]|]; cbn; [|reflexivity]. destruct k; auto. Qed.

Lemma finally_done (e : code State) st : finally (Done (Falls, st)) e = (st <- destroy (EmptyString, Some e) st ;; Done (Falls, st)).
Proof. unfold finally, destroy. cbn. destruct (e st) as [st1 []]; reflexivity. Qed.

Lemma expand_Block l : expand (Block (State := State) l) = CBlock (expand_list l).
Proof. reflexivity. Qed.
Lemma expand_IfElse c s t : expand (IfElse (State := State) c s t) = CIfElse c (expand s) (expand t).
Proof. reflexivity. Qed.
Lemma expand_Repeat n s : expand (Repeat (State := State) n s) = CRepeat n (expand s).
Proof. reflexivity. Qed.
Lemma no_vars (s : stmt State) st k inner st1 : match s with Block _ | IfElse _ _ _ | Repeat _ _ => True | _ => False end -> exec (expand s) [] st = Done (k, inner, st1) -> inner = [].
Proof.
  destruct s as [e|n e|x|b|c s t|n s|k0]; intros H; try contradiction; rewrite ?expand_Block, ?expand_IfElse, ?expand_Repeat, ?exec_CBlock, ?exec_CIfElse, ?exec_CRepeat.
  - destruct (exec_list (expand_list b) [] st) as [[[k1 i1] st2]|]; cbn [bind]; [|discriminate]. destruct (destroy_all i1 st2); cbn; [|discriminate]. now intros [= <- <- <-].
  - destruct (if c st then _ else _) as [[[k1 i1] st2]|]; cbn [bind]; [|discriminate]. destruct (destroy_all i1 st2); cbn; [|discriminate]. now intros [= <- <- <-].
  - destruct (repeat_body _ _ st) as [[k1 st2]|]; cbn; [|discriminate]. now intros [= <- <- <-].
Qed.
Lemma step (s : stmt State) (f g : State -> outcome (leave * State)) st : match s with Block _ | IfElse _ _ _ | Repeat _ _ => True | _ => False end -> (forall st, f st = g st) ->
  (' (k, inner, st) <- exec (expand s) [] st ;; match k with Falls => ' (k, st) <- f st ;; st <- destroy_all inner st ;; Done (k, st) | _ => st <- destroy_all inner st ;; Done (k, st) end) =
  (' (k, st) <- scoped (exec (expand s) [] st) ;; match k with Falls => g st | _ => Done (k, st) end).
Proof.
  intros H E. unfold scoped. destruct (exec (expand s) [] st) as [[[k inner] st1]|] eqn:X; cbn [bind]; [|reflexivity]. rewrite (no_vars _ _ _ _ _ H X). cbn [destroy_all bind].
  destruct k; try reflexivity. rewrite E. destruct (g st1) as [[k2 st2]|]; reflexivity.
Qed.

Lemma exec_means : (forall (s : stmt State) st, scoped (exec (expand s) [] st) = means s st).
Proof.
  apply (stmt_ind2 State (fun s => forall st, scoped (exec (expand s) [] st) = means s st) (fun l => forall st, scoped (exec_list (expand_list l) [] st) = means_list l st)).
  - intros e st. cbn. destruct (e st); reflexivity.
  - intros n e st. cbn [expand exec means]. unfold scoped, finally, destroy_all, destroy. cbn. destruct (e st) as [st1 []]; reflexivity.
  - reflexivity.
  - intros l IH st. rewrite expand_Block. change (means (Block l) st) with (means_list l st). rewrite <- IH, exec_block. unfold scoped at 1. destruct (scoped (exec_list (expand_list l) [] st)) as [[k st1]|]; reflexivity.
  - intros c s IHs t IHt st. rewrite expand_IfElse. change (means (IfElse c s t) st) with (if c st then means s st else means t st). rewrite exec_CIfElse. destruct (c st); [rewrite <- IHs|rewrite <- IHt]; unfold scoped;
      [destruct (exec (expand s) [] st) as [[[k inner] st1]|]|destruct (exec (expand t) [] st) as [[[k inner] st1]|]]; cbn; try reflexivity; destruct (destroy_all inner st1); reflexivity.
  - intros n s IH st. rewrite expand_Repeat. change (means (Repeat n s) st) with (loop n (means s) st). rewrite exec_CRepeat. unfold scoped at 1.
    rewrite (repeat_ext n (fun st => ' (k, inner, st) <- exec (expand s) [] st ;; st <- destroy_all inner st ;; Done (k, st)) (means s) st).
    + destruct (loop n (means s) st) as [[k st1]|]; reflexivity.
    + intros st1. apply IH.
  - reflexivity.
  - reflexivity.
  - intros s IHs l IHl st. change (expand_list (SCons s l)) with (CCons (expand s) (expand_list l)). rewrite exec_CCons.
    assert (G : scoped (' (k, vars, st) <- exec (expand s) [] st ;; match k with Falls => exec_list (expand_list l) vars st | _ => Done (k, vars, st) end) =
                (' (k, inner, st) <- exec (expand s) [] st ;; match k with
                  | Falls => ' (k, st) <- scoped (exec_list (expand_list l) [] st) ;; st <- destroy_all inner st ;; Done (k, st)
                  | _ => st <- destroy_all inner st ;; Done (k, st) end)).
    { destruct (exec (expand s) [] st) as [[[k inner] st1]|]; cbn [bind]; [|reflexivity]. destruct k; try reflexivity.
      rewrite exec_list_frame. unfold scoped, local. destruct (exec_list (expand_list l) [] st1) as [[[k2 inner2] st2]|]; cbn [bind]; [|reflexivity].
      rewrite destroy_all_app. destruct (destroy_all inner2 st2) as [st3|]; cbn [bind]; [|reflexivity]. destruct (destroy_all inner st3); reflexivity. }
    rewrite G. clear G. destruct s as [e|n e|x|b|c s t|n s|k].
    + cbn. destruct (e st) as [st1 []]; cbn; [reflexivity|]. rewrite IHl. destruct (means_list l st1) as [[k st2]|]; reflexivity.
    + change (means_list (SCons (Defer n e) l) st) with (finally (means_list l st) e). rewrite <- IHl. cbn [expand exec bind]. unfold finally.
      destruct (scoped (exec_list (expand_list l) [] st)) as [[k st2]|]; cbn [bind]; [|reflexivity]. cbn. destruct (e st2) as [st4 []]; reflexivity.
    + change (means_list (SCons (Var x) l) st) with (means_list l st). rewrite <- IHl. cbn [expand exec bind]. destruct (scoped (exec_list (expand_list l) [] st)) as [[k st2]|]; reflexivity.
    + change (means_list (SCons (Block b) l) st) with (' (k, st) <- means (Block b) st ;; match k with Falls => means_list l st | _ => Done (k, st) end). rewrite <- IHs. apply step; [exact I|]. intros; now rewrite IHl.
    + change (means_list (SCons (IfElse c s t) l) st) with (' (k, st) <- means (IfElse c s t) st ;; match k with Falls => means_list l st | _ => Done (k, st) end). rewrite <- IHs. apply step; [exact I|]. intros; now rewrite IHl.
    + change (means_list (SCons (Repeat n s) l) st) with (' (k, st) <- means (Repeat n s) st ;; match k with Falls => means_list l st | _ => Done (k, st) end). rewrite <- IHs. apply step; [exact I|]. intros; now rewrite IHl.
    + destruct k; cbn; try reflexivity. rewrite IHl. destruct (means_list l st) as [[k st2]|]; reflexivity.
Qed.
End Proofs.

(** ** Names *)
Lemma distinct_NoDup l : distinct l = true <-> NoDup l.
Proof.
  induction l as [|x l IH]; cbn [distinct]; [split; [constructor|reflexivity]|]. rewrite Bool.andb_true_iff, IH, Bool.negb_true_iff. split.
  - intros [H N]. constructor; [|exact N]. intros I. enough (existsb (String.eqb x) l = true) by congruence. apply existsb_exists. exists x. split; [exact I|apply String.eqb_refl].
  - intros N. inversion N as [|y l' H N' E]; subst. split; [|exact N']. destruct (existsb (String.eqb x) l) eqn:E; [|reflexivity]. exfalso. apply existsb_exists in E as (y & I & E).
    apply String.eqb_eq in E. subst y. contradiction.
Qed.
Lemma names_declared {State} (l : stmts State) : declared_list (expand_list l) = names l.
Proof. induction l as [|s l IH]; [reflexivity|]. change (declared_list (expand_list (SCons s l))) with (declared (expand s) ++ declared_list (expand_list l)). rewrite IH. now destruct s. Qed.
Lemma well_formed_clean {State} (s : stmt State) : well_formed (expand s) = true <-> clean s.
Proof.
  revert s. apply (stmt_ind2 State (fun s => well_formed (expand s) = true <-> clean s) (fun l => well_formed_list (expand_list l) = true <-> clean_list l)); try (intros; cbn; tauto).
  - intros l IH. change (well_formed (expand (Block l))) with (distinct (declared_list (expand_list l)) && well_formed_list (expand_list l))%bool.
    change (clean (Block l)) with (NoDup (names l) /\ clean_list l). rewrite Bool.andb_true_iff, distinct_NoDup, names_declared, IH. tauto.
  - intros c s IHs t IHt. change (well_formed (expand (IfElse c s t))) with (well_formed (expand s) && well_formed (expand t))%bool.
    change (clean (IfElse c s t)) with (clean s /\ clean t). rewrite Bool.andb_true_iff. tauto.
  - intros s IHs l IHl. change (well_formed_list (expand_list (SCons s l))) with (well_formed (expand s) && well_formed_list (expand_list l))%bool.
    change (clean_list (SCons s l)) with (clean s /\ clean_list l). rewrite Bool.andb_true_iff. tauto.
Qed.

(** ** C108 *)
(** A program that declares no name twice in a scope behaves as if every NAZARA_DEFER were a finally around the rest of its scope, however that is left. *)
Theorem C108_finally : forall (State : Type) (l : stmts State) st, clean (Block l) -> run l st = Some (means_list l st).
Proof.
  intros State l st C. unfold run. change (CBlock (expand_list l)) with (expand (Block l)). rewrite (proj2 (well_formed_clean (Block l)) C). f_equal.
  change (means_list l st) with (means (Block l) st). rewrite <- exec_means. unfold scoped. destruct (exec (expand (Block l)) [] st) as [[[k inner] st1]|] eqn:X; cbn [bind]; [|reflexivity].
  rewrite (no_vars (Block l) _ _ _ _ I X). reflexivity.
Qed.

(** Other programs do not compile. *)
Theorem C108_compiles : forall (State : Type) (l : stmts State) st, run l st = None <-> ~ clean (Block l).
Proof.
  intros State l st. unfold run. change (CBlock (expand_list l)) with (expand (Block l)). pose proof (well_formed_clean (Block l)) as W.
  destruct (well_formed (expand (Block l))); split; intros H; try reflexivity; try discriminate; intuition congruence.
Qed.

(** Different lines give different names. *)
Theorem C108_names : forall m n, defer_name m = defer_name n -> m = n.
Proof.
  intros m n H. unfold defer_name, suffix in H. cbn in H. injection H as H. apply Unsigned.to_uint_inj. unfold line_text in H.
  pose proof (NilEmpty.usu (Nat.to_uint m)) as A. pose proof (NilEmpty.usu (Nat.to_uint n)) as B. rewrite H in A. congruence.
Qed.

(** Several on different lines of one scope: the rest of the scope runs, then the deferred codes in reverse order, once each. *)
Theorem C108_reverse_order : forall (State : Type) (ds : list (nat * code State)) rest st, clean (Block (defers ds rest)) ->
  run (defers ds rest) st = Some (' (k, st) <- means_list rest st ;; st <- run_codes (rev (map snd ds)) st ;; Done (k, st)).
Proof.
  intros State ds rest st C. rewrite (C108_finally State _ st C). f_equal. clear C. induction ds as [|[n e] ds IH].
  - cbn. destruct (means_list rest st) as [[k st1]|]; reflexivity.
  - change (means_list (defers ((n, e) :: ds) rest) st) with (finally (means_list (defers ds rest) st) e). rewrite IH. unfold finally.
    destruct (means_list rest st) as [[k st1]|]; cbn [bind]; [|reflexivity]. cbn [map snd rev].
    assert (R : forall l st, run_codes (l ++ [e]) st = (st <- run_codes l st ;; let (st, threw) := e st in if threw : bool then Fault FTerminate else Done st)).
    { clear. induction l as [|f l IH]; intros st; cbn; [destruct (e st) as [s []]; reflexivity|]. destruct (f st) as [s []]; [reflexivity|apply IH]. }
    rewrite R. destruct (run_codes (rev (map snd ds)) st1) as [st2|]; cbn [bind]; [|reflexivity]. destruct (e st2) as [st3 []]; reflexivity.
Qed.

Fixpoint declares_nothing {State} (l : stmts State) : Prop := match l with SNil => True | SCons (Defer _ _) _ | SCons (Var _) _ => False | SCons _ l => declares_nothing l end.
Theorem C108_lines : forall (State : Type) (ds : list (nat * code State)) rest, NoDup (map fst ds) -> clean_list rest -> declares_nothing rest -> clean (Block (defers ds rest)).
Proof.
  intros State ds rest N C D. change (NoDup (names (defers ds rest)) /\ clean_list (defers ds rest)). 
  assert (E : names (defers ds rest) = map defer_name (map fst ds)).
  { clear N C. induction ds as [|[n e] ds IH]; [|cbn; now rewrite IH]. cbn. induction rest as [|s rest IH]; [reflexivity|]. destruct s; cbn in D; try contradiction; cbn; auto. }
  split.
  - rewrite E. apply FinFun.Injective_map_NoDup; [intros m n; apply C108_names|exact N].
  - clear - C. induction ds as [|[n e] ds IH]; [exact C|]. cbn. tauto.
Qed.

(** ** What does not hold *)
(** Two on one line of a scope, as in a macro that defers twice, do not compile. *)
Theorem C108_same_line_refuted : forall (State : Type) n (e f : code State) rest st, run (SCons (Defer n e) (SCons (Defer n f) rest)) st = None.
Proof.
  intros State n e f rest st. apply C108_compiles. intros [N _]. cbn in N. inversion N as [|x l H _]. apply H. now left.
Qed.
(** As the substatement of an if it runs at once, before the statements after it. *)
Theorem C108_if_refuted : forall (State : Type) n (e : code State) rest st, clean (Block rest) -> snd (e st) = false ->
  run (SCons (IfElse (fun _ => true) (Defer n e) (Block SNil)) rest) st = run rest (fst (e st)).
Proof.
  intros State n e rest st C H. rewrite !C108_finally; [|exact C|]. 2:{ destruct C as [C1 C2]. repeat split; [exact C1|constructor|exact C2]. }
  f_equal. cbn. unfold finally. cbn. destruct (e st) as [st1 t]. cbn in H. subst t. reflexivity.
Qed.
(** A deferred code that throws ends the program, also when the scope is left normally. *)
Theorem C108_throwing_refuted : forall (State : Type) n (e : code State) st, snd (e st) = true -> run (SCons (Defer n e) SNil) st = Some (Fault FTerminate).
Proof.
  intros State n e st H. rewrite C108_finally by (repeat constructor; intros []). f_equal. cbn. unfold finally. cbn. destruct (e st) as [st1 t]. cbn in H. now subst t.
Qed.

(** ** Non-vacuity *)
Definition say (n : nat) : code (list nat) := fun st => (st ++ [n], false).
Example C108_case : run (SCons (Defer 10 (say 1)) (SCons (Do (say 2)) (SCons (Defer 12 (say 3)) (SCons (Block (SCons (Defer 12 (say 4)) (SCons (Leave Returns) SNil))) (SCons (Do (say 5)) SNil))))) [] = Some (Done (Returns, [2; 4; 3; 1])).
Proof. reflexivity. Qed.
Example C108_loop : run (SCons (Repeat 3 (Block (SCons (Defer 7 (say 1)) (SCons (IfElse (fun st => Nat.ltb 2 (length st)) (Leave Breaks) (Leave Continues)) SNil)))) SNil) [] = Some (Done (Falls, [1; 1; 1])).
Proof. reflexivity. Qed.
Example C108_exception : run (SCons (Defer 7 (say 1)) (SCons (Do (fun st => (st ++ [9], true))) (SCons (Do (say 5)) SNil))) [] = Some (Done (Throws, [9; 1])).
Proof. reflexivity. Qed.
Example C108_name : defer_name 120 = "defer_120"%string.
Proof. reflexivity. Qed.
Example C108_clean : clean (Block (defers [(3, say 1); (4, say 2)] (SCons (Do (say 3)) SNil))).
Proof. apply C108_lines; [repeat constructor; cbn; intuition discriminate|cbn; tauto|cbn; tauto]. Qed.
Example C108_if : run (SCons (IfElse (fun _ => true) (Defer 1 (say 1)) (Block SNil)) (SCons (Do (say 2)) SNil)) [] = Some (Done (Falls, [1; 2])).
Proof. reflexivity. Qed.

Print Assumptions C108_finally.
Print Assumptions C108_compiles.
Print Assumptions C108_names.
Print Assumptions C108_reverse_order.
Print Assumptions C108_lines.
Print Assumptions C108_same_line_refuted.
Print Assumptions C108_if_refuted.
Print Assumptions C108_throwing_refuted.
