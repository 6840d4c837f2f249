(** Programs with and without assertions: the one without does the same as the one with, unless an assertion fails. *)
From Verif Require Import Base.

(** [o] with assertions, [o'] without. *)
Definition follows {A} (o o' : outcome A) : Prop := o = Fault FAssert \/ o' = o.

Lemma follows_refl {A} (o : outcome A) : follows o o.
Proof. now right. Qed.
Lemma follows_bind {A B} (o o' : outcome A) (f f' : A -> outcome B) : follows o o' -> (forall a, o = Done a -> follows (f a) (f' a)) -> follows (bind o f) (bind o' f').
Proof. intros [-> | ->] H; [now left|]. destruct o as [a|e]; [apply (H a eq_refl) | now right]. Qed.
Lemma follows_assert {B} c (k k' : outcome B) : (c = true -> follows k k') -> follows (assert c ;;; k) k'.
Proof. destruct c; cbn; intros H; [now apply H | now left]. Qed.
Lemma follows_if {A} (c : bool) (x x' y y' : outcome A) : (c = true -> follows x x') -> (c = false -> follows y y') -> follows (if c then x else y) (if c then x' else y').
Proof. destruct c; auto. Qed.
Lemma follows_foreach {S} (f f' : S -> nat -> outcome S) l : forall s, (forall s i, In i l -> follows (f s i) (f' s i)) -> follows (foreach l f s) (foreach l f' s).
Proof.
  induction l as [|i l IH]; intros s H; cbn [foreach]; [apply follows_refl|]. apply follows_bind; [apply H; now left|].
  intros a _. apply IH. intros. apply H. now right.
Qed.
Lemma follows_done {A} (o o' : outcome A) a : follows o o' -> o = Done a -> o' = Done a.
Proof. intros [-> | ->] H; [discriminate | exact H]. Qed.
Lemma follows_not {A} (o o' : outcome A) : follows o o' -> o <> Fault FAssert -> o' = o.
Proof. intros [F|F] H; [contradiction | assumption]. Qed.

(** A loop one of whose steps is undefined, the others being done or undefined. *)
Lemma foreach_undefined {S} (P : S -> Prop) (f : S -> nat -> outcome S) ls : (forall s i, In i ls -> P s -> (exists s', f s i = Done s' /\ P s') \/ f s i = Fault FUB) ->
  (exists i, In i ls /\ forall s, P s -> f s i = Fault FUB) -> forall s, P s -> foreach ls f s = Fault FUB.
Proof.
  induction ls as [|j ls IH]; intros H (i & I & F) s HP; [destruct I|]. cbn [foreach]. destruct (H s j (or_introl eq_refl) HP) as [(s' & E & HP')|E]; rewrite E; cbn [bind]; [|reflexivity].
  destruct I as [->|I]; [rewrite (F s HP) in E; discriminate|]. apply IH; [intros; apply H; [now right | assumption] | exists i; split; assumption | exact HP'].
Qed.

Create HintDb release discriminated.
(** Walks through both programs at once. *)
Ltac follow :=
  repeat match goal with
  | |- follows ?x ?x => apply follows_refl
  | |- follows (bind (assert _) _) _ => apply follows_assert; intros _
  | |- follows (bind _ _) (bind _ _) => apply follows_bind; [|intros ? _]
  | |- follows (if ?c then _ else _) (if ?c then _ else _) => apply follows_if; intros _
  | |- follows (foreach _ _ _) (foreach _ _ _) => apply follows_foreach; intros ? ? _
  | |- follows (let '(_, _) := ?p in _) _ => destruct p
  | |- follows (match ?p with (_, _) => _ end) _ => destruct p
  | |- follows (match ?p with _ => _ end) _ => destruct p
  end; eauto with release.
