(** Property C74: FunctionRef. *)
From Verif Require Import Base FunctionRefModel.

(** What each FunctionRef should designate, by reading the program text only. *)
Section Spec.
  Context {S A : Type}.
  Fixpoint designates (os : list (op S A)) (refs : list (option nat)) : list (option nat) :=
    match os with
    | [] => refs
    | ORef i :: r => designates r (refs ++ [Some i])
    | ONull :: r => designates r (refs ++ [None])
    | OCopy j :: r => designates r (refs ++ [nth j refs None])
    | OAssign j k :: r => designates r (upd refs j (nth k refs None))
    | _ :: r => designates r refs
    end.
  (** The same program with each call through a FunctionRef replaced by the call of what it designates. *)
  Fixpoint direct (os : list (op S A)) (refs : list (option nat)) : option (list (op S A)) :=
    match os with
    | [] => Some []
    | o :: r =>
      match direct r (designates [o] refs) with
      | None => None
      | Some r' => match o with
        | OCall j a => match nth_error refs j with Some (Some i) => Some (ODirect i a :: r') | _ => None end
        | OCopy j => if j <? length refs then Some (o :: r') else None
        | OAssign j k => if (j <? length refs) && (k <? length refs) then Some (o :: r') else None
        | _ => Some (o :: r')
        end
      end
    end.
End Spec.
Definition target (f : fref) : option nat := m_functor f.
Definition proper (f : fref) : Prop := f = of_nullptr \/ exists i, f = of_callable i.

(** *** C74 *)
(** Over every program: a call through a FunctionRef is the call of the callable it designates, on its current state; the program does the same as
    the one that calls directly (same results, same final callables), and copies designate the same callable. *)
Theorem C74_forwards : forall (S A R : Type) (call : S -> A -> S * R) (os os' : list (op S A)) (s : state),
  Forall proper (refs s) -> direct os (map target (refs s)) = Some os' ->
  run call os s = run call os' s /\ forall s', run call os s = Done s' -> Forall proper (refs s') /\ map target (refs s') = designates os (map target (refs s)).
Proof.
  intros S A R call os. induction os as [|o os IH]; intros os' s P D; cbn [direct] in D.
  - injection D as <-. split; [reflexivity|]. intros s' H. injection H as <-. auto.
  - destruct (direct os (designates [o] (map target (refs s)))) as [r'|] eqn:DR; [|discriminate].
    assert (K : forall s1, Forall proper (refs s1) -> map target (refs s1) = designates [o] (map target (refs s)) ->
      run call os s1 = run call r' s1 /\ forall s', run call os s1 = Done s' -> Forall proper (refs s') /\ map target (refs s') = designates os (designates [o] (map target (refs s)))).
    { intros s1 P1 T1. rewrite <- T1 in DR. rewrite <- T1. exact (IH r' s1 P1 DR). }
    assert (DS : designates (o :: os) (map target (refs s)) = designates os (designates [o] (map target (refs s)))) by (destruct o; reflexivity). rewrite DS. clear DS.
    assert (SN : forall f, proper f -> Forall proper (refs s ++ [f])) by (intros f F; apply Forall_app; auto).
    destruct o as [c|i|i| |j|j k|j a|i a]; cbn [designates] in *; try (injection D as <-); cbn [run step bind].
    + apply K; [exact P|reflexivity].
    + apply K; [exact P|reflexivity].
    + apply K; cbn [refs]; [apply SN; right; eauto|now rewrite map_app].
    + apply K; cbn [refs]; [apply SN; now left|now rewrite map_app].
    + destruct (Nat.ltb_spec j (length (map target (refs s)))) as [L|]; [|discriminate]. injection D as <-. rewrite map_length in L. cbn [run step].
      rewrite (vget_done _ j of_nullptr L). cbn [bind]. apply K; cbn [refs].
      * apply SN. rewrite Forall_forall in P. apply P, nth_In, L.
      * rewrite map_app. cbn [map]. change None with (target of_nullptr). now rewrite map_nth.
    + destruct (Nat.ltb_spec j (length (map target (refs s)))) as [L|]; [|discriminate]. destruct (Nat.ltb_spec k (length (map target (refs s)))) as [L'|]; [|discriminate].
      injection D as <-. rewrite map_length in L, L'. cbn [run step]. rewrite (vget_done _ k of_nullptr L'). cbn [bind]. rewrite vset_done by exact L. cbn [bind]. apply K; cbn [refs].
      * apply Forall_upd; [exact P|]. rewrite Forall_forall in P. apply P, nth_In, L'.
      * change None with (target of_nullptr). rewrite map_nth. clear. unfold copy. generalize (nth k (refs s) of_nullptr). intros f. revert j. induction (refs s) as [|y l IH]; intros [|j]; cbn; congruence.
    + rewrite nth_error_map in D. destruct (nth_error (refs s) j) as [f|] eqn:F; [|discriminate]. cbn [option_map] in D. unfold target in D at 1.
      destruct (m_functor f) as [i|] eqn:M; [|discriminate]. injection D as <-. cbn [run step]. unfold vget. rewrite F. cbn [bind].
      assert (PF : f = of_callable i).
      { rewrite Forall_forall in P. destruct (P f (nth_error_In _ _ F)) as [->|[i' ->]]; [discriminate|]. injection M as ->. reflexivity. }
      rewrite PF. unfold ref_call, of_callable. cbn [m_callback m_functor]. destruct (invoke call (callables s) i a) as [[w r]|e]; cbn [bind]; [apply K; [exact P|reflexivity]|split; [reflexivity|discriminate]].
    + destruct (invoke call (callables s) i a) as [[w r]|e]; cbn [bind]; [apply K; [exact P|reflexivity]|split; [reflexivity|discriminate]].
Qed.
Print Assumptions C74_forwards.
(** One call: exactly one run of the callable, on its current state; nothing else changes. *)
Theorem C74_once : forall (S A R : Type) (call : S -> A -> S * R) (w : world) i s a, nth_error w i = Some (Some s) ->
  exists w', ref_call call w (of_callable i) a = Done (w', snd (call s a)) /\ nth_error w' i = Some (Some (fst (call s a))) /\ forall k, k <> i -> nth_error w' k = nth_error w k.
Proof.
  intros S A R call w i s a H. unfold ref_call, invoke. cbn [of_callable m_callback m_functor]. rewrite H. destruct (call s a) as [s' r]. cbn [fst snd]. eexists. split; [reflexivity|]. split.
  - rewrite nth_error_upd, Nat.eqb_refl. assert (L : i < length w) by (apply nth_error_Some; congruence). rewrite (proj2 (Nat.ltb_lt _ _) L). reflexivity.
  - intros k N. rewrite nth_error_upd. destruct (Nat.eqb_spec k i); [contradiction|reflexivity].
Qed.
Print Assumptions C74_once.
(** Conversion to bool, over every program. *)
Theorem C74_bool : forall (f : fref), proper f -> to_bool f = false <-> f = of_nullptr.
Proof. intros f [->|[i ->]]; split; intros H; reflexivity || discriminate. Qed.
Print Assumptions C74_bool.
(** A callable lives from its creation to its end, whatever is done with references to it. *)
Fixpoint living {S A : Type} (os : list (op S A)) (l : list bool) : list bool :=
  match os with
  | [] => l
  | ONew _ :: r => living r (l ++ [true])
  | OEnd i :: r => living r (firstn i l ++ match skipn i l with [] => [] | _ :: t => false :: t end)
  | _ :: r => living r l
  end.
Definition lives {S : Type} (o : option S) : bool := match o with Some _ => true | None => false end.
Lemma upd_parts {T} (x : T) : forall l i, upd l i x = firstn i l ++ match skipn i l with [] => [] | _ :: t => x :: t end.
Proof. induction l as [|y l IH]; intros [|i]; try reflexivity. cbn. now rewrite <- IH. Qed.
Lemma invoke_lives {S A R : Type} (call : S -> A -> S * R) w i a w' r : invoke call w i a = Done (w', r) -> map lives w' = map lives w.
Proof.
  unfold invoke. destruct (nth_error w i) as [[s|]|] eqn:E; try discriminate. destruct (call s a) as (s', r'). intros [= <- <-]. revert i E. induction w as [|y w IH]; intros [|i] E; try discriminate; cbn in *.
  - injection E as ->. reflexivity.
  - f_equal. now apply IH.
Qed.
Theorem C74_lifetime : forall (S A R : Type) (call : S -> A -> S * R) (os : list (op S A)) (s s' : state), run call os s = Done s' -> map lives (callables s') = living os (map lives (callables s)).
Proof.
  intros S A R call os. induction os as [|o os IH]; intros s s' E; cbn [run] in E; [now injection E as <-|].
  apply bind_done in E as (s1 & E1 & E). rewrite (IH _ _ E). destruct o as [c|i|i| |j|j k|j a|i a]; cbn [step] in E1; cbn [living].
  - injection E1 as <-. cbn. now rewrite map_app.
  - injection E1 as <-. cbn [callables]. f_equal. rewrite upd_parts, map_app, firstn_map. f_equal. rewrite skipn_map. now destruct (skipn i (callables s)).
  - now injection E1 as <-.
  - now injection E1 as <-.
  - apply bind_done in E1 as (f & _ & E1). now injection E1 as <-.
  - apply bind_done in E1 as (f & _ & E1). apply bind_done in E1 as (l & _ & E1). now injection E1 as <-.
  - apply bind_done in E1 as (f & _ & E1). apply bind_done in E1 as ((w, r) & E2 & E1). injection E1 as <-. cbn [callables]. f_equal.
    unfold ref_call in E2. destruct (m_callback f); [|discriminate]. destruct (m_functor f) as [i|]; [|discriminate]. exact (invoke_lives call _ _ _ _ _ E2).
  - apply bind_done in E1 as ((w, r) & E2 & E1). injection E1 as <-. cbn [callables]. f_equal. exact (invoke_lives call _ _ _ _ _ E2).
Qed.
Print Assumptions C74_lifetime.
(** The conditions are needed: calling a null FunctionRef, or one whose callable has ended (such as a function pointer given as a temporary), is undefined. *)
Theorem C74_null : forall (S A R : Type) (call : S -> A -> S * R) (w : world) i a, ref_call call w of_nullptr a = Fault FUB /\ (nth_error w i = Some None -> ref_call call w (of_callable i) a = Fault FUB).
Proof. intros S A R call w i a. split; [reflexivity|]. intros H. unfold ref_call, invoke. cbn. now rewrite H. Qed.
Print Assumptions C74_null.
Example C74_nonvacuous : let os := [ONew 10; ONew 20; ORef 0; OCopy 0; OCall 1 3; OCall 0 4; ORef 1; OAssign 0 2; OCall 0 5; OCall 1 0] in
  direct os [] <> None /\ run (fun s a => (s + a, s + a)) os (mkState [] [] []) = Done (mkState [Some 17; Some 25] [of_callable 1; of_callable 0; of_callable 1] [13; 17; 25; 17]).
Proof. split; [discriminate|reflexivity]. Qed.
