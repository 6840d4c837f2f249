(** Property C129: what a FunctionRef can be made from. *)
From Verif Require Import Base FunctionRefModel FunctionRefTypeModel.

(** Results of type [r] serve a signature returning [Ret] when they convert, or when both are void. *)
Definition serves {T} (converts : T -> T -> bool) (r Ret : ret T) : bool :=
  match r, Ret with None, None => true | Some u, Some t => converts u t | _, _ => false end.

(** *** C129 *)
(** Functions, function pointers and classes with one function call operator (closures: const unless mutable), as lvalues and as temporaries: a callable that is not const is taken
    exactly when its result serves, and calls reach it. *)
Theorem C129_simple_partial : forall (T : Type) (converts : T -> T -> bool) (Ret r : ret T) (rvalue : bool),
  (forall c, c = Function r \/ c = Pointer r ->
    let a := {| a_type := c; a_const := false; a_rvalue := rvalue |} in constructs converts Ret a = serves converts r Ret /\ reaches a = Some 0 /\ direct a = Some 0) /\
  (forall i is_const, let m := {| m_id := i; m_const := is_const; m_ref := NoRef; m_ret := r |} in
    let a := {| a_type := Class [m]; a_const := false; a_rvalue := rvalue |} in constructs converts Ret a = serves converts r Ret /\ reaches a = Some i /\ direct a = Some i).
Proof.
  intros T conv Ret r v. split.
  - intros c H a. subst a. destruct H as [-> | ->]; unfold constructs, accepted, body_compiles, serves; cbn; (split; [|split; reflexivity]); destruct Ret, r; try reflexivity; now destruct (conv _ _).
  - intros i ic m a. subst a m. unfold constructs, accepted, body_compiles, serves, reaches, direct, invoke_type, select. destruct ic; cbn; rewrite Nat.eqb_refl; cbn;
    (split; [|split; reflexivity]); destruct Ret, r; try reflexivity; now destruct (conv _ _).
Qed.
Print Assumptions C129_simple_partial.
(** Any set of function call operators, called through a variable that is not const: the same operator as in a direct call; the constraint is exact for signatures that return something. *)
Theorem C129_lvalue_partial : forall (T : Type) (converts : T -> T -> bool) (Ret : ret T) (a : arg T), a_const a = false -> a_rvalue a = false ->
  reaches a = direct a /\ (Ret <> None -> constructs converts Ret a = accepted converts Ret a).
Proof.
  intros T conv Ret [c k v] K V. cbn in K, V. subst k v. unfold reaches, direct, constructs, accepted, body_compiles. cbn [a_type a_const a_rvalue negb andb]. split; [reflexivity|].
  intros R. destruct (invoke_type c false false) as [(i & r)|]; [|reflexivity]. destruct Ret as [t|]; [|now elim R]. destruct r; [|reflexivity]. now destruct (conv _ _).
Qed.
Print Assumptions C129_lvalue_partial.
(** Temporaries as well, if no operator has a ref-qualifier. *)
Theorem C129_rvalue_partial : forall (T : Type) (a : arg T), a_const a = false -> (forall ms, a_type a = Class ms -> Forall (fun m => m_ref m = NoRef) ms) -> reaches a = direct a.
Proof.
  intros T [c k v] K H. cbn in K, H. subst k. unfold reaches, direct. cbn [a_type a_const a_rvalue]. destruct c as [r|r|ms]; try reflexivity. specialize (H ms eq_refl). cbn [invoke_type].
  replace (select false v ms) with (select false false ms); [reflexivity|]. unfold select.
  assert (F : forall l : list (member T), Forall (fun m => m_ref m = NoRef) l -> filter (viable false false) l = filter (viable false v) l).
  { intros l G. induction G as [|m l E G IH]; [reflexivity|]. cbn [filter]. rewrite IH. replace (viable false false m) with (viable false v m) by (unfold viable; now rewrite E). reflexivity. }
  rewrite (F ms H). set (vs := filter (viable false v) ms).
  assert (G : Forall (fun m => m_ref m = NoRef) vs) by (subst vs; clear F; induction H as [|m l E H IH]; cbn; [constructor|]; destruct (viable false v m); [now constructor|exact IH]).
  replace (filter (fun m => forallb (fun n => (m_id m =? m_id n) || better false m n) vs) vs) with (filter (fun m => forallb (fun n => (m_id m =? m_id n) || better v m n) vs) vs); [reflexivity|].
  enough (Q : forall w l, Forall (fun m => m_ref m = NoRef) w -> Forall (fun m => m_ref m = NoRef) l ->
    filter (fun m => forallb (fun n => (m_id m =? m_id n) || better v m n) w) l = filter (fun m => forallb (fun n => (m_id m =? m_id n) || better false m n) w) l) by exact (Q vs vs G G).
  intros w l Gw Gl. induction Gl as [|m l E Gl IH]; [reflexivity|]. cbn [filter].
  replace (forallb (fun n => (m_id m =? m_id n) || better v m n) w) with (forallb (fun n => (m_id m =? m_id n) || better false m n) w); [now rewrite IH|].
  clear - E Gw. induction Gw as [|n w En Gw IH]; [reflexivity|]. cbn [forallb]. rewrite IH. unfold better. now rewrite E.
Qed.
Print Assumptions C129_rvalue_partial.
(** The constraint accepts const callables, for which the body does not compile. *)
Theorem C129_const_refuted : forall (T : Type) (converts : T -> T -> bool) (Ret r : ret T) i rvalue,
  (r = Ret -> (forall t, Ret = Some t -> converts t t = true) ->
    accepted converts Ret {| a_type := Class [{| m_id := i; m_const := true; m_ref := NoRef; m_ret := r |}]; a_const := true; a_rvalue := rvalue |} = true /\
    accepted converts Ret {| a_type := Pointer r; a_const := true; a_rvalue := rvalue |} = true) /\
  (forall a, a_const a = true -> constructs converts Ret a = false).
Proof.
  intros T conv Ret r i v. split.
  - intros -> C. unfold accepted, invoke_type, select. cbn. rewrite Nat.eqb_refl. cbn. destruct Ret as [t|]; [|split; reflexivity]. rewrite (C t eq_refl). split; reflexivity.
  - intros a K. unfold constructs, body_compiles. rewrite K. cbn. apply andb_false_r.
Qed.
Print Assumptions C129_const_refuted.
(** It accepts callables that return something for a signature returning void, which do not compile either. *)
Theorem C129_void_refuted : forall (T : Type) (converts : T -> T -> bool) (a : arg T) i u j v, invoke_type (a_type a) (a_const a) (a_rvalue a) = Some (i, u) ->
  invoke_type (a_type a) false false = Some (j, Some v) -> accepted converts None a = true /\ constructs converts None a = false.
Proof. intros T conv a i u j v E F. unfold constructs, accepted, body_compiles. rewrite E, F. split; [reflexivity|]. apply andb_false_r. Qed.
Print Assumptions C129_void_refuted.
(** Function call operators with ref-qualifiers, given as temporaries: the constraint looks at one operator and the call reaches the other; an operator for rvalues alone is accepted and
    does not compile; an operator for lvalues alone would do but is refused. *)
Theorem C129_ref_qualified_refuted : forall (T : Type) (converts : T -> T -> bool) (Ret r r' : ret T) i j, i <> j ->
  let member q k r := {| m_id := k; m_const := false; m_ref := q; m_ret := r |} in
  let temporary ms := {| a_type := Class ms; a_const := false; a_rvalue := true |} in
  serves converts r Ret = true -> serves converts r' Ret = true ->
  (let a := temporary [member RRef i r; member LRef j r'] in constructs converts Ret a = true /\ direct a = Some i /\ reaches a = Some j) /\
  (let a := temporary [member RRef i r] in accepted converts Ret a = true /\ constructs converts Ret a = false) /\
  (let a := temporary [member LRef j r'] in accepted converts Ret a = false /\ body_compiles converts Ret a = true).
Proof.
  intros T conv Ret r r' i j N mem temp S S'. subst mem temp.
  assert (EQ : forall k, (k =? k) = true) by apply Nat.eqb_refl. assert (NE : (i =? j) = false) by now apply Nat.eqb_neq.
  unfold constructs, accepted, body_compiles, reaches, direct, invoke_type, select. cbn. rewrite !EQ. cbn. rewrite ?NE, ?EQ. cbn.
  destruct Ret as [t|], r as [u|], r' as [u'|]; cbn in S, S'; try discriminate; rewrite ?S, ?S'; repeat split; reflexivity.
Qed.
Print Assumptions C129_ref_qualified_refuted.

(** Lifetimes. A temporary (a closure or a function pointer such as &function) ends with the declaration: the FunctionRef dangles whatever is done next, until it is assigned. *)
Definition keeps {S A} (j : nat) (o : op S A) : Prop := match o with OAssign k _ => k <> j | _ => True end.
Lemma step_keeps {S A R : Type} (call : S -> A -> S * R) o s s' j f : keeps j o -> nth_error (refs s) j = Some f -> step call o s = Done s' -> nth_error (refs s') j = Some f.
Proof.
  intros K E H. assert (APP : forall l, nth_error (refs s ++ l) j = Some f) by (intros l; rewrite nth_error_app1; [exact E|]; apply nth_error_Some; now rewrite E).
  destruct o as [c|i|i| |k|k k'|k a|i a]; cbn [step] in H.
  - now injection H as <-.
  - now injection H as <-.
  - injection H as <-. apply APP.
  - injection H as <-. apply APP.
  - apply bind_done in H as (g & _ & H). injection H as <-. apply APP.
  - apply bind_done in H as (g & _ & H). apply bind_done in H as (l & V & H). injection H as <-. cbn [refs]. cbn in K. unfold vset in V.
    destruct (k <? length (refs s)); [|discriminate]. injection V as <-. rewrite nth_error_upd. destruct (Nat.eqb_spec j k) as [Q|Q]; [now elim K|exact E].
  - apply bind_done in H as (g & _ & H). apply bind_done in H as ((w, r) & _ & H). now injection H as <-.
  - apply bind_done in H as ((w, r) & _ & H). now injection H as <-.
Qed.
Lemma step_dead {S A R : Type} (call : S -> A -> S * R) o s s' i : nth_error (callables s) i = Some None -> step call o s = Done s' -> nth_error (callables s') i = Some None.
Proof.
  intros E H. assert (L : i < length (callables s)) by (apply nth_error_Some; now rewrite E).
  assert (INV : forall k a w r, invoke call (callables s) k a = Done (w, r) -> nth_error w i = Some None).
  { intros k a w r I. unfold invoke in I. destruct (nth_error (callables s) k) as [[c|]|] eqn:G; try discriminate. destruct (call c a) as (c', r'). injection I as <- <-.
    rewrite nth_error_upd. destruct (Nat.eqb_spec i k) as [Q|Q]; [subst; rewrite G in E; discriminate|exact E]. }
  destruct o as [c|k|k| |k|k k'|k a|k a]; cbn [step] in H.
  - injection H as <-. cbn. now rewrite nth_error_app1.
  - injection H as <-. cbn [callables]. rewrite nth_error_upd. destruct (Nat.eqb_spec i k) as [Q|Q]; [|exact E]. subst k. now destruct (i <? length (callables s)) eqn:?; [|apply Nat.ltb_lt in L; congruence].
  - now injection H as <-.
  - now injection H as <-.
  - apply bind_done in H as (g & _ & H). now injection H as <-.
  - apply bind_done in H as (g & _ & H). apply bind_done in H as (l & V & H). now injection H as <-.
  - apply bind_done in H as (g & _ & H). apply bind_done in H as ((w, r) & I & H). injection H as <-. cbn [callables]. unfold ref_call in I.
    destruct (m_callback g); [|discriminate]. destruct (m_functor g); [|discriminate]. eapply INV. exact I.
  - apply bind_done in H as ((w, r) & I & H). injection H as <-. eapply INV. exact I.
Qed.
Theorem C129_temporary_refuted : forall (S A R : Type) (call : S -> A -> S * R) (s s' : state) (c : S) (os : list (op S A)) a,
  let i := length (callables s) in let j := length (refs s) in
  Forall (keeps j) os -> run call ([ONew c; ORef i; OEnd i] ++ os) s = Done s' -> step call (OCall j a) s' = Fault FUB /\ exists f, nth_error (refs s') j = Some f /\ to_bool f = true.
Proof.
  intros S A R call s s' c os a i j K H. cbn [app run step bind] in H. cbn [callables refs results] in H.
  assert (E : forall t, nth_error (refs t) j = Some (of_callable i) -> nth_error (callables t) i = Some None -> run call os t = Done s' -> nth_error (refs s') j = Some (of_callable i) /\ nth_error (callables s') i = Some None).
  { clear H. induction K as [|o os Ko K IH]; intros t E1 E2 H; cbn [run] in H; [injection H as <-; auto|]. apply bind_done in H as (t' & H1 & H). eapply IH; [| |exact H].
    - eapply step_keeps; eassumption.
    - eapply step_dead; eassumption. }
  match type of H with run _ _ ?t = _ => destruct (E t) as (E1 & E2); [| |exact H|] end.
  { cbn [refs]. rewrite nth_error_app2, Nat.sub_diag by (subst j; apply le_n). reflexivity. }
  { cbn [callables]. subst i. clear. induction (callables s) as [|x l IH]; [reflexivity|exact IH]. }
  split; [|exists (of_callable i); split; [exact E1|reflexivity]].
  cbn [step]. unfold vget. rewrite E1. cbn [bind]. unfold ref_call, of_callable. cbn [m_callback m_functor]. unfold invoke. now rewrite E2.
Qed.
Print Assumptions C129_temporary_refuted.
(** As the argument of a call, a temporary lives until the call is over: inside, the FunctionRef can be called whatever else is done. *)
Theorem C129_parameter : forall (S A R : Type) (call : S -> A -> S * R) (s s' : state) (c : S) (os : list (op S A)) a,
  let i := length (callables s) in let j := length (refs s) in
  Forall (fun o => keeps j o /\ o <> OEnd i) os -> run call ([ONew c; ORef i] ++ os) s = Done s' ->
  exists c' s2, nth_error (callables s') i = Some (Some c') /\ step call (OCall j a) s' = Done s2 /\ results s2 = results s' ++ [snd (call c' a)].
Proof.
  intros S A R call s s' c os a i j K H. cbn [app run step bind] in H. cbn [callables refs results] in H.
  assert (E : forall t, nth_error (refs t) j = Some (of_callable i) -> (exists c, nth_error (callables t) i = Some (Some c)) -> run call os t = Done s' ->
    nth_error (refs s') j = Some (of_callable i) /\ exists c, nth_error (callables s') i = Some (Some c)).
  { clear H. induction K as [|o os (Ko & No) K IH]; intros t E1 (d & E2) H; cbn [run] in H; [injection H as <-; eauto|]. apply bind_done in H as (t' & H1 & H). eapply IH; [| |exact H].
    - eapply step_keeps; eassumption.
    - assert (INV : forall k a w r, invoke call (callables t) k a = Done (w, r) -> exists c, nth_error w i = Some (Some c)).
      { intros k b w r I. unfold invoke in I. destruct (nth_error (callables t) k) as [[e|]|] eqn:G; try discriminate. destruct (call e b) as (e', r'). injection I as <- <-.
        rewrite nth_error_upd. destruct (Nat.eqb_spec i k) as [Q|Q]; [|eauto]. subst k. exists e'. assert (L : i < length (callables t)) by (apply nth_error_Some; now rewrite E2).
        apply Nat.ltb_lt in L. now rewrite ?L. }
      destruct o as [x|k|k| |k|k k'|k b|k b]; cbn [step] in H1.
      + injection H1 as <-. cbn. rewrite nth_error_app1; [eauto|]. apply nth_error_Some. now rewrite E2.
      + injection H1 as <-. cbn [callables]. rewrite nth_error_upd. destruct (Nat.eqb_spec i k) as [Q|Q]; [subst k; now elim No|eauto].
      + injection H1 as <-. eauto.
      + injection H1 as <-. eauto.
      + apply bind_done in H1 as (g & _ & H1). injection H1 as <-. eauto.
      + apply bind_done in H1 as (g & _ & H1). apply bind_done in H1 as (l & V & H1). injection H1 as <-. eauto.
      + apply bind_done in H1 as (g & _ & H1). apply bind_done in H1 as ((w, r) & I & H1). injection H1 as <-. cbn [callables]. unfold ref_call in I.
        destruct (m_callback g); [|discriminate]. destruct (m_functor g); [|discriminate]. eapply INV. exact I.
      + apply bind_done in H1 as ((w, r) & I & H1). injection H1 as <-. eapply INV. exact I. }
  match type of H with run _ _ ?t = _ => destruct (E t) as (E1 & c' & E2); [| |exact H|] end.
  { cbn [refs]. rewrite nth_error_app2, Nat.sub_diag by (subst j; apply le_n). reflexivity. }
  { exists c. cbn [callables]. rewrite nth_error_app2, Nat.sub_diag by (subst i; apply le_n). reflexivity. }
  exists c'. cbn [step]. unfold vget. rewrite E1. cbn [bind]. unfold ref_call, of_callable. cbn [m_callback m_functor]. unfold invoke. rewrite E2. destruct (call c' a) as (c2, r). cbn [bind].
  eexists. split; [reflexivity|]. split; reflexivity.
Qed.
Print Assumptions C129_parameter.
Example C129_nonvacuous :
  let conv (a b : nat) := a <=? b in
  let closure c := Class [{| m_id := 7; m_const := true; m_ref := NoRef; m_ret := c |}] in
  constructs conv (Some 3) {| a_type := closure (Some 2); a_const := false; a_rvalue := true |} = true /\ constructs conv None {| a_type := closure (Some 2); a_const := false; a_rvalue := true |} = false /\
  direct {| a_type := Class [{| m_id := 1; m_const := true; m_ref := NoRef; m_ret := Some 1 |}; {| m_id := 2; m_const := false; m_ref := NoRef; m_ret := Some 1 |}]; a_const := true; a_rvalue := false |} = Some 1 /\
  (let run := run (fun s a => (s + a, s + a)) in
   run ([ONew 5; ORef 0] ++ [OCall 0 1] ++ [OEnd 0]) (mkState [] [] []) = Done (mkState [None] [of_callable 0] [6]) /\ run ([ONew 5; ORef 0; OEnd 0] ++ [OCall 0 1]) (mkState [] [] []) = Fault FUB).
Proof. repeat split. Qed.
