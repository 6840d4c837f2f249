(** Signals keep their invariant when callbacks throw. *)
From Coq Require Import Permutation.
From Verif Require Import SignalSpec SignalModel SignalThrowModel SignalProofs SignalEmit SignalHistory.
Open Scope nat_scope.

(** Everything an emission preserves, whatever it does: the invariant, and the slots never reused. *)
Definition fine (w w' : world) : Prop :=
  length (heap w) <= length (heap w') /\ (vacant w -> vacant w' /\ same_lives w w') /\ (bounded w' -> forall S, ginv w S -> exists S', ginv w' S').

Lemma fine_refl w : fine w w.
Proof. split; [lia|]. split; [intros V; split; [exact V | apply same_refl]|]. eauto. Qed.
Lemma fine_trans a b c : fine a b -> fine b c -> fine a c.
Proof.
  intros (A1 & A2 & A3) (B1 & B2 & B3). split; [lia|]. split.
  - intros V. destruct (A2 V) as (V1 & S1). destruct (B2 V1) as (V2 & S2). split; [exact V2 | exact (same_trans _ _ _ S1 S2)].
  - intros HB S G. destruct (A3 (bounded_le _ _ HB B1) S G) as (S1 & G1). exact (B3 HB S1 G1).
Qed.
Lemma fine_simple w a w' : noemit a -> simple_action w a = Done w' -> fine w w'.
Proof.
  intros NA E. split; [exact (simple_heap _ _ _ E)|]. split; [intros V; exact (simple_vacant _ _ _ V E)|]. intros HB S G. exact (simple_ginv _ _ _ _ G NA E HB).
Qed.
Lemma fine_iterator w s f w' : set_iterator w s f = Done w' -> fine w w'.
Proof.
  intros E. split; [rewrite (set_iterator_heap _ _ _ _ E); lia|]. split; [intros V; exact (set_iterator_vacant _ _ _ _ V E)|]. intros _ S G. exact (set_iterator_ginv _ _ _ _ _ G E).
Qed.
Lemma fine_call w id : fine w (log w (ECall id)).
Proof.
  split; [cbn; lia|]. split; [intros V; split; [now apply call_vacant | intros s; reflexivity]|]. intros _ S G. exists S. now apply log_call.
Qed.

Lemma tperform_fine emit acts : (forall w t w' x, emit w t = Done (w', x) -> fine w w') -> forall w w' x, tperform emit acts w = Done (w', x) -> fine w w'.
Proof.
  intros HE. induction acts as [|a r IH]; intros w w' x H; cbn [tperform] in H; [injection H as <- <-; apply fine_refl|]. destruct a as [a|t|].
  - apply bind_inv in H. destruct H as ([w1 x1] & E1 & H).
    assert (F : fine w w1) by (destruct a; try (apply bind_inv in E1; destruct E1 as (w2 & E2 & E1); injection E1 as <- <-; refine (fine_simple _ _ _ _ E2); exact I); exact (HE _ _ _ _ E1)).
    destruct x1; [now injection H as <- <-|]. exact (fine_trans _ _ _ F (IH _ _ _ H)).
  - apply bind_inv in H. destruct H as ([w1 x1] & E1 & H). exact (fine_trans _ _ _ (HE _ _ _ _ E1) (IH _ _ _ H)).
  - injection H as <- <-. apply fine_refl.
Qed.

Lemma temit_loop_fine beh fuel : forall w s w' x, temit_loop beh fuel w s = Done (w', x) -> fine w w'.
Proof.
  induction fuel as [|fuel IH]; intros w s w' x H; cbn [temit_loop] in H; [discriminate|]. apply bind_inv in H. destruct H as (y & E & H). destruct (_ <? _)%N; [|injection H as <- <-; apply fine_refl].
  apply bind_inv in H. destruct H as ([id|] & E1 & H); [|discriminate]. apply bind_inv in H. destruct H as ([w1 th] & E2 & H).
  assert (F : fine w w1).
  { apply (fine_trans _ _ _ (fine_call w id)). apply (tperform_fine _ _) in E2; [exact E2|]. intros wa ta wb xb K. apply bind_inv in K. destruct K as (wc & K1 & K). exact (fine_trans _ _ _ (fine_iterator _ _ _ _ K1) (IH _ _ _ _ K)). }
  destruct th; [now injection H as <- <-|]. apply bind_inv in H. destruct H as (w2 & E3 & H). exact (fine_trans _ _ _ F (fine_trans _ _ _ (fine_iterator _ _ _ _ E3) (IH _ _ _ _ H))).
Qed.
Lemma tact_fine beh fuel w a w' x : tact beh fuel w a = Done (w', x) -> fine w w'.
Proof.
  intros H. destruct a; cbn [tact] in H; try (apply bind_inv in H; destruct H as (w1 & E & H); injection H as <- <-; refine (fine_simple _ _ _ _ E); exact I).
  unfold temit in H. apply bind_inv in H. destruct H as (w1 & E & H). exact (fine_trans _ _ _ (fine_iterator _ _ _ _ E) (temit_loop_fine _ _ _ _ _ _ H)).
Qed.
Lemma tact_keeps beh fuel w a w' x : keeps w -> tact beh fuel w a = Done (w', x) -> bounded w' -> keeps w'.
Proof. intros ((S & G) & V) E HB. destruct (tact_fine _ _ _ _ _ _ E) as (_ & F2 & F3). split; [exact (F3 HB S G) | exact (proj1 (F2 V))]. Qed.
