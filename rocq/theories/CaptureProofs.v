(** Captures of callbacks, with nested emissions. *)
From Coq Require Import Permutation.
From Verif Require Import CellModel CellProofs VectorModel VectorProofs VectorHistory VectorCopy PoolProofs SignalSpec SignalModel SignalProofs SignalEmit SignalHistory CaptureModel.
Open Scope nat_scope.

(** *** A slot keeps its signal *)
Definition signals_kept (w w' : world) : Prop := forall id x, nth_error (heap w) id = Some x -> exists y, nth_error (heap w') id = Some y /\ slot_signal y = slot_signal x.
Lemma kept_refl w : signals_kept w w. Proof. intros id x H. eauto. Qed.
Lemma kept_same w w' : heap w' = heap w -> signals_kept w w'. Proof. intros E id x H. rewrite E. eauto. Qed.
Lemma kept_trans a b c : signals_kept a b -> signals_kept b c -> signals_kept a c.
Proof. intros H K id x E. destruct (H id x E) as (y & E1 & S1). destruct (K id y E1) as (z & E2 & S2). exists z. split; [exact E2 | congruence]. Qed.
Lemma set_slot_kept w o j w' : set_slot w o (set_index j) = Done w' -> signals_kept w w'.
Proof.
  unfold set_slot. destruct o as [id|]; [|discriminate]. intros H. apply bind_inv in H. destruct H as (x & E & H). apply bind_inv in H. destruct H as (h & E2 & H). injection H as <-. intros k y K. cbn [heap].
  unfold vset in E2. destruct (id <? length (heap w)) eqn:EL; [|discriminate]. injection E2 as <-. rewrite nth_error_upd, EL. destruct (Nat.eqb_spec k id) as [->|]; [|eauto]. cbn [andb]. unfold vget in E. rewrite K in E. injection E as ->. eauto.
Qed.
Lemma sig_disconnect_kept w s id w' : sig_disconnect w s id = Done w' -> signals_kept w w'.
Proof.
  unfold sig_disconnect. intros H. do 4 (apply bind_inv in H; destruct H as (? & ? & H)). destruct (_ || _)%N.
  - do 4 (apply bind_inv in H; destruct H as (? & ? & H)). apply bind_inv in H. destruct H as (w1 & E1 & H). apply bind_inv in H. destruct H as (? & ? & H). apply bind_inv in H. destruct H as (w2 & E2 & H). injection H as <-.
    apply (kept_trans w w1); [exact (set_slot_kept _ _ _ _ E1) | apply kept_same; exact (put_heap _ _ _ _ E2)].
  - do 4 (apply bind_inv in H; destruct H as (? & ? & H)). apply bind_inv in H. destruct H as (w1 & E1 & H). do 3 (apply bind_inv in H; destruct H as (? & ? & H)). apply bind_inv in H. destruct H as (w2 & E2 & H). apply bind_inv in H. destruct H as (? & ? & H). apply bind_inv in H. destruct H as (w3 & E3 & H).
    injection H as <-. apply (kept_trans w w1); [exact (set_slot_kept _ _ _ _ E1)|]. apply (kept_trans w1 w2); [exact (set_slot_kept _ _ _ _ E2) | apply kept_same; exact (put_heap _ _ _ _ E3)].
Qed.
Lemma simple_kept w a w' : simple_action w a = Done w' -> signals_kept w w'.
Proof.
  destruct a as [id|s|s|s]; cbn [simple_action]; intros H.
  - unfold conn_disconnect in H. destruct (lock w (Some id)); [|injection H as <-; apply kept_refl]. apply bind_inv in H. destruct H as (? & ? & H). exact (sig_disconnect_kept _ _ _ _ H).
  - apply bind_inv in H. destruct H as ((w1 & i) & E & H). injection H as <-. unfold sig_connect in E. apply bind_inv in E. destruct E as (? & ? & E). apply bind_inv in E. destruct E as ((? & ?) & ? & E). apply bind_inv in E. destruct E as (bk & ? & E). apply bind_inv in E. destruct E as (w2 & E2 & E).
    destruct bk; [|discriminate]. injection E as <- _. intros k y K. cbn [log heap]. rewrite (put_heap _ _ _ _ E2). cbn [heap]. rewrite nth_error_app1 by (apply nth_error_Some; congruence). eauto.
  - unfold sig_clear in H. do 2 (apply bind_inv in H; destruct H as (? & ? & H)). apply bind_inv in H. destruct H as (w2 & E2 & H). injection H as <-. apply kept_same. exact (put_heap _ _ _ _ E2).
  - injection H as <-. apply kept_refl.
Qed.
Lemma perform_kept emit acts : (forall w t w', emit w t = Done w' -> signals_kept w w') -> forall w w', perform emit acts w = Done w' -> signals_kept w w'.
Proof.
  intros HE. induction acts as [|a r IH]; intros w w' H; cbn [perform] in H; [injection H as <-; apply kept_refl|]. apply bind_inv in H. destruct H as (w1 & E1 & H). apply (kept_trans w w1); [|exact (IH _ _ H)]. destruct a; try exact (simple_kept _ _ _ E1). exact (HE _ _ _ E1).
Qed.
Lemma iterator_kept w s f w' : set_iterator w s f = Done w' -> signals_kept w w'.
Proof. intros H. apply kept_same. exact (set_iterator_heap _ _ _ _ H). Qed.
Lemma loop_kept beh fuel : forall w s w', emit_loop beh fuel w s = Done w' -> signals_kept w w'.
Proof.
  induction fuel as [|fuel IH]; intros w s w' H; cbn [emit_loop] in H; [discriminate|]. apply bind_inv in H. destruct H as (x & E & H). destruct (_ <? _)%N; [|injection H as <-; apply kept_refl].
  apply bind_inv in H. destruct H as ([id|] & E1 & H); [|discriminate]. apply bind_inv in H. destruct H as (w1 & E2 & H). apply bind_inv in H. destruct H as (w2 & E3 & H).
  apply (kept_trans w w1); [|apply (kept_trans w1 w2); [exact (iterator_kept _ _ _ _ E3) | exact (IH _ _ _ H)]].
  apply perform_kept in E2; [exact E2|]. intros wa ta wb K. apply bind_inv in K. destruct K as (wc & K1 & K). apply (kept_trans wa wc); [exact (iterator_kept _ _ _ _ K1) | exact (IH _ _ _ K)].
Qed.

(** *** A slot object lives as long as the slot is connected *)
Definition still (w : world) (s id : nat) : bool := existsb (Nat.eqb id) (connected (trace w) s).
Lemma still_in w s id : still w s id = true <-> In id (connected (trace w) s).
Proof. unfold still. rewrite existsb_exists. split; [intros (x & H & E); apply Nat.eqb_eq in E; now subst | intros H; exists id; split; [exact H | apply Nat.eqb_refl]]. Qed.
Definition of_signal (w : world) (s id : nat) : Prop := exists x, nth_error (heap w) id = Some x /\ slot_signal x = s.
Lemma of_kept w w' s id : signals_kept w w' -> of_signal w s id -> of_signal w' s id.
Proof. intros K (x & E & H). destruct (K id x E) as (y & E1 & H1). exists y. split; [exact E1 | congruence]. Qed.
Lemma owned_still w s id : keeps w -> of_signal w s id -> owned w id = still w s id.
Proof.
  intros ((S & (R & G)) & V) (x & EX & SX). apply eq_true_iff_eq. rewrite (owned_rep w S id R), still_in. split.
  - intros (t & L & P & ES & HI). pose proof HI as HI'. apply In_nth_error in HI. destruct HI as (k & N). pose proof (proj1 (proj2 R) t L P k id ES N) as K. rewrite EX in K. injection K as ->. cbn [slot_signal] in SX. subst t. exact (Permutation_in id (G _ _ _ ES) HI').
  - intros HI. destruct (nth_error S s) as [[[L P]|]|] eqn:ES.
    + exists s, L, P. split; [exact ES|]. exact (Permutation_in id (Permutation_sym (G _ _ _ ES)) HI).
    + rewrite (V s) in HI; [destruct HI|]. intros LV. apply (lives_rep w S s R) in LV. destruct LV as (L & P & E). congruence.
    + rewrite (V s) in HI; [destruct HI|]. intros LV. apply (lives_rep w S s R) in LV. destruct LV as (L & P & E). congruence.
Qed.
(** The slot that the loop calls is one of the signal. *)
Lemma called_slot w s x id : keeps w -> sig_at w s = Done x -> (m_slotIterator x <? N.of_nat (fv_size true (m_slots x)))%N = true -> fv_at true (m_slots x) (N.to_nat (m_slotIterator x)) = Done (Some id) ->
  of_signal w s id /\ In id (connected (trace w) s).
Proof.
  intros ((S & (R & G)) & V) E EC EA. destruct (sig_at_alive w S s x R E) as ([L P] & ES). destruct (rep_sig w S s L P R ES) as (y & EY & HV & _). rewrite E in EY. injection EY as <-. rewrite (hv_size _ _ HV), map_length in EC. apply N.ltb_lt in EC.
  rewrite (hv_at _ _ _ HV) in EA by (rewrite map_length; lia). rewrite nth_map_some in EA by lia. injection EA as EA. assert (N : nth_error L (N.to_nat (m_slotIterator x)) = Some id) by (rewrite <- EA; apply nth_at; lia).
  split; [|exact (Permutation_in id (G _ _ _ ES) (nth_error_In _ _ N))]. eexists. split; [exact (proj1 (proj2 R) _ _ _ _ _ ES N) | reflexivity].
Qed.

(** *** Keeping *)
Lemma iterator_keeps w s f w' : keeps w -> set_iterator w s f = Done w' -> keeps w'.
Proof. intros ((S & G) & V) E. split; [exact (set_iterator_ginv w S s f w' G E) | exact (proj1 (set_iterator_vacant _ _ _ _ V E))]. Qed.
Lemma call_keeps w id : keeps w -> keeps (log w (ECall id)).
Proof. intros ((S & G) & V). split; [exists S; now apply log_call | now apply call_vacant]. Qed.
Lemma loop_keeps beh fuel w s w' : keeps w -> emit_loop beh fuel w s = Done w' -> bounded w' -> keeps w'.
Proof. intros ((S & G) & V) E HB. split; [exact (loop_ginv _ _ _ _ _ _ G E HB) | exact (proj1 (loop_vacant _ _ _ _ _ V E))]. Qed.

(** *** Using what is checked *)
(** [still]'s sense of ending: only disconnecting the slot or clearing its signal. *)
Section Agree.
Variables (beh : list event -> nat -> list action) (uses : nat -> nat -> bool).
Let byowner (w : world) (s id : nat) := negb (uses s id) || owned w id.
Let bytrace (w : world) (s id : nat) := negb (uses s id) || still w s id.
Definition agree {A} (r a b : outcome A) : Prop := a = b /\ (a = r \/ a = Fault FUB).
Lemma perform_agree s id emit ea eb acts :
  (forall w t w', emit w t = Done w' -> length (heap w) <= length (heap w')) -> (forall w t w', keeps w -> emit w t = Done w' -> bounded w' -> keeps w') -> (forall w t w', emit w t = Done w' -> signals_kept w w') ->
  (forall w t w', keeps w -> emit w t = Done w' -> bounded w' -> agree (Done w') (ea w t) (eb w t)) ->
  forall w w', keeps w -> of_signal w s id -> perform emit acts w = Done w' -> bounded w' ->
  keeps w' /\ agree (Done w') (perform_using (fun w => byowner w s id) ea acts w) (perform_using (fun w => bytrace w s id) eb acts w).
Proof.
  intros HM HK HS HA. induction acts as [|a r IH]; intros w w' K O H HB; cbn [perform perform_using] in *.
  - injection H as <-. split; [exact K|]. split; [reflexivity | now left].
  - apply bind_inv in H. destruct H as (w1 & E1 & H). assert (B1 : bounded w1) by (apply (bounded_le w1 w' HB); exact (perform_heap emit r HM _ _ H)).
    assert (K1 : keeps w1) by (destruct a; [apply (act_keeps (fun _ _ => []) 0 w (ADisconnect c) w1 K E1 B1) | apply (act_keeps (fun _ _ => []) 0 w (AConnect s0) w1 K E1 B1) | apply (act_keeps (fun _ _ => []) 0 w (AClear s0) w1 K E1 B1) | exact (HK _ _ _ K E1 B1)]).
    assert (O1 : of_signal w1 s id) by (apply (of_kept w); [destruct a; try exact (simple_kept _ _ _ E1); exact (HS _ _ _ E1) | exact O]).
    destruct (IH w1 w' K1 O1 H HB) as (K' & EQ & RES). split; [exact K'|]. unfold byowner at 1, bytrace at 1. rewrite (owned_still w s id K O). unfold agree. destruct (negb (uses s id) || still w s id); [|split; [reflexivity | now right]]. cbn [require bind].
    assert (ST : agree (Done w1) (match a with AEmit t => ea w t | _ => simple_action w a end) (match a with AEmit t => eb w t | _ => simple_action w a end)) by (destruct a; try (rewrite E1; split; [reflexivity | now left]); exact (HA _ _ _ K E1 B1)).
    destruct ST as (-> & [-> | ->]); cbn [bind]; [|split; [reflexivity | now right]]. split; assumption.
Qed.
Lemma loop_agree fuel : forall w s w', keeps w -> emit_loop beh fuel w s = Done w' -> bounded w' -> agree (Done w') (using_loop beh byowner fuel w s) (using_loop beh bytrace fuel w s).
Proof.
  induction fuel as [|fuel IH]; intros w s w' K H HB; cbn [emit_loop using_loop] in *; [discriminate|]. apply bind_inv in H. destruct H as (x & E & H). rewrite E. cbn [bind]. destruct (_ <? _)%N eqn:EC; [|injection H as <-; split; [reflexivity | now left]].
  apply bind_inv in H. destruct H as ([id|] & E1 & H); [|discriminate]. rewrite E1. cbn [bind]. apply bind_inv in H. destruct H as (w1 & E2 & H). apply bind_inv in H. destruct H as (w2 & E3 & H). pose proof (emit_loop_heap _ _ _ _ _ H) as M2. rewrite (set_iterator_heap _ _ _ _ E3) in M2.
  assert (B1 : bounded w1) by (apply (bounded_le w1 w' HB); lia). destruct (called_slot w s x id K E EC E1) as (O & _).
  assert (O' : of_signal (log w (ECall id)) s id) by exact O.
  pose proof (fun h1 h2 h3 h4 => perform_agree s id _ (fun w t => w <- set_iterator w t (fun _ => 0%N) ;; using_loop beh byowner fuel w t) (fun w t => w <- set_iterator w t (fun _ => 0%N) ;; using_loop beh bytrace fuel w t) _ h1 h2 h3 h4 _ w1 (call_keeps w id K) O' E2 B1) as PA.
  destruct PA as (K1 & EQ & RES).
  - intros wa ta wb Q. apply bind_inv in Q. destruct Q as (wc & Q1 & Q). rewrite <- (set_iterator_heap _ _ _ _ Q1). exact (emit_loop_heap _ _ _ _ _ Q).
  - intros wa ta wb Ka Q Bb. apply bind_inv in Q. destruct Q as (wc & Q1 & Q). exact (loop_keeps _ _ _ _ _ (iterator_keeps _ _ _ _ Ka Q1) Q Bb).
  - intros wa ta wb Q. apply bind_inv in Q. destruct Q as (wc & Q1 & Q). apply (kept_trans wa wc); [exact (iterator_kept _ _ _ _ Q1) | exact (loop_kept _ _ _ _ _ Q)].
  - intros wa ta wb Ka Q Bb. apply bind_inv in Q. destruct Q as (wc & Q1 & Q). rewrite Q1. cbn [bind]. exact (IH wc ta wb (iterator_keeps _ _ _ _ Ka Q1) Q Bb).
  - rewrite EQ in *. destruct RES as [-> | ->]; cbn [bind]; [|split; [reflexivity | now right]]. rewrite E3. cbn [bind]. exact (IH w2 s w' (iterator_keeps _ _ _ _ K1 E3) H HB).
Qed.
Lemma emit_agree fuel w s w' : keeps w -> emit beh fuel w s = Done w' -> bounded w' -> agree (Done w') (emit_using beh byowner fuel w s) (emit_using beh bytrace fuel w s).
Proof. intros K H HB. unfold emit, emit_using in *. apply bind_inv in H. destruct H as (w1 & E & H). rewrite E. cbn [bind]. exact (loop_agree fuel w1 s w' (iterator_keeps _ _ _ _ K E) H HB). Qed.
End Agree.

(** *** Slots that nobody ends *)
Section Stay.
Variables (beh : list event -> nat -> list action) (uses : nat -> nat -> bool).
Definition spares (a : action) : Prop := match a with ADisconnect c => forall s, uses s c = false | AClear t => forall id, uses t id = false | _ => True end.
Definition stay (w w' : world) : Prop := forall s id, uses s id = true -> In id (connected (trace w) s) -> In id (connected (trace w') s).
Lemma stay_refl w : stay w w. Proof. intros s id _ H. exact H. Qed.
Lemma stay_trans a b c : stay a b -> stay b c -> stay a c. Proof. intros H K s id U I. exact (K s id U (H s id U I)). Qed.
Lemma stay_same w w' : trace w' = trace w -> stay w w'. Proof. intros E s id _ H. now rewrite E. Qed.
Lemma simple_stay w a w' : spares a -> simple_action w a = Done w' -> stay w w'.
Proof.
  intros SP E s id U HI. destruct a as [c|t|t|t]; cbn [simple_action spares] in *.
  - unfold conn_disconnect, lock in E. destruct (owned w c); [|injection E as <-; exact HI]. apply bind_inv in E. destruct E as (x & _ & E). apply disconnect_lives in E. destruct E as (_ & T). rewrite T, connected_app. cbn [fold_left step_connected]. apply without_in. split; [exact HI|]. intros ->. rewrite SP in U. discriminate.
  - apply bind_inv in E. destruct E as ((w1 & k) & E & E'). injection E' as <-. destruct (connect_lives _ _ _ _ E) as (_ & _ & T). rewrite T, connected_app. cbn [fold_left step_connected]. destruct (t =? s); [apply in_or_app; now left | exact HI].
  - apply clear_lives in E. destruct E as (_ & T). rewrite T, connected_app. cbn [fold_left step_connected]. destruct (Nat.eqb_spec t s) as [->|]; [|exact HI]. rewrite SP in U. discriminate.
  - injection E as <-. exact HI.
Qed.
Lemma iterator_trace w s f w' : set_iterator w s f = Done w' -> trace w' = trace w.
Proof. unfold set_iterator, sig_put. intros H. apply bind_inv in H. destruct H as (x & _ & H). apply bind_inv in H. destruct H as (l & _ & H). now injection H as <-. Qed.
Lemma perform_stay emit acts : (forall w t w', emit w t = Done w' -> stay w w') -> Forall spares acts -> forall w w', perform emit acts w = Done w' -> stay w w'.
Proof.
  intros HE. induction acts as [|a r IH]; intros HS w w' H; cbn [perform] in H; [injection H as <-; apply stay_refl|]. inversion HS as [|? ? SA SR]; subst. apply bind_inv in H. destruct H as (w1 & E1 & H). apply (stay_trans w w1); [|exact (IH SR _ _ H)]. destruct a; try exact (simple_stay _ _ _ SA E1). exact (HE _ _ _ E1).
Qed.
Hypothesis HB : forall tr id, Forall spares (beh tr id).
Lemma loop_stay fuel : forall w s w', emit_loop beh fuel w s = Done w' -> stay w w'.
Proof.
  induction fuel as [|fuel IH]; intros w s w' H; cbn [emit_loop] in H; [discriminate|]. apply bind_inv in H. destruct H as (x & E & H). destruct (_ <? _)%N; [|injection H as <-; apply stay_refl].
  apply bind_inv in H. destruct H as ([id|] & E1 & H); [|discriminate]. apply bind_inv in H. destruct H as (w1 & E2 & H). apply bind_inv in H. destruct H as (w2 & E3 & H).
  apply (stay_trans w w1); [|apply (stay_trans w1 w2); [exact (stay_same _ _ (iterator_trace _ _ _ _ E3)) | exact (IH _ _ _ H)]].
  apply perform_stay in E2; [| |apply HB].
  - intros t k U I. apply E2; [exact U|]. cbn [log trace]. rewrite connected_app. exact I.
  - intros wa ta wb K. apply bind_inv in K. destruct K as (wc & K1 & K). apply (stay_trans wa wc); [exact (stay_same _ _ (iterator_trace _ _ _ _ K1)) | exact (IH _ _ _ K)].
Qed.
Let bytrace (w : world) (s id : nat) := negb (uses s id) || still w s id.
Lemma perform_spared s id emit eb acts : (forall w t w', emit w t = Done w' -> stay w w') -> (forall w t w', keeps w -> emit w t = Done w' -> bounded w' -> keeps w' /\ eb w t = Done w') -> (forall w t w', emit w t = Done w' -> length (heap w) <= length (heap w')) ->
  Forall spares acts -> forall w w', keeps w -> (uses s id = true -> In id (connected (trace w) s)) -> perform emit acts w = Done w' -> bounded w' -> keeps w' /\ perform_using (fun w => bytrace w s id) eb acts w = Done w'.
Proof.
  intros HS HE HM. induction acts as [|a r IH]; intros SP w w' K HI H BD; cbn [perform perform_using] in *; [injection H as <-; auto|]. inversion SP as [|? ? SA SR]; subst. apply bind_inv in H. destruct H as (w1 & E1 & H). assert (B1 : bounded w1) by (apply (bounded_le w1 w' BD); exact (perform_heap emit r HM _ _ H)).
  assert (OK : bytrace w s id = true) by (unfold bytrace; destruct (uses s id); [now rewrite (proj2 (still_in w s id) (HI eq_refl)) | reflexivity]). rewrite OK. cbn [require bind].
  assert (ST : keeps w1 /\ match a with AEmit t => eb w t | _ => simple_action w a end = Done w1) by (destruct a; [split; [apply (act_keeps (fun _ _ => []) 0 w (ADisconnect c) w1 K E1 B1) | exact E1] | split; [apply (act_keeps (fun _ _ => []) 0 w (AConnect s0) w1 K E1 B1) | exact E1] | split; [apply (act_keeps (fun _ _ => []) 0 w (AClear s0) w1 K E1 B1) | exact E1] | exact (HE _ _ _ K E1 B1)]).
  destruct ST as (K1 & ->). cbn [bind]. apply IH; auto. intros EU. assert (ST : stay w w1) by (destruct a; try exact (simple_stay _ _ _ SA E1); exact (HS _ _ _ E1)). exact (ST s id EU (HI EU)).
Qed.
Lemma loop_spared fuel : forall w s w', keeps w -> emit_loop beh fuel w s = Done w' -> bounded w' -> using_loop beh bytrace fuel w s = Done w'.
Proof.
  induction fuel as [|fuel IH]; intros w s w' K H BD; cbn [emit_loop using_loop] in *; [discriminate|]. apply bind_inv in H. destruct H as (x & E & H). rewrite E. cbn [bind]. destruct (_ <? _)%N eqn:EC; [|injection H as <-; reflexivity].
  apply bind_inv in H. destruct H as ([id|] & E1 & H); [|discriminate]. rewrite E1. cbn [bind]. apply bind_inv in H. destruct H as (w1 & E2 & H). apply bind_inv in H. destruct H as (w2 & E3 & H). pose proof (emit_loop_heap _ _ _ _ _ H) as M2. rewrite (set_iterator_heap _ _ _ _ E3) in M2.
  assert (B1 : bounded w1) by (apply (bounded_le w1 w' BD); lia). destruct (called_slot w s x id K E EC E1) as (_ & O).
  assert (O' : uses s id = true -> In id (connected (trace (log w (ECall id))) s)) by (intros _; cbn [log trace]; rewrite connected_app; exact O).
  pose proof (fun h1 h2 h3 => perform_spared s id _ (fun w t => w <- set_iterator w t (fun _ => 0%N) ;; using_loop beh bytrace fuel w t) _ h1 h2 h3 (HB (trace (log w (ECall id))) id) _ w1 (call_keeps w id K) O' E2 B1) as PA.
  destruct PA as (K1 & ->).
  - intros wa ta wb Q. apply bind_inv in Q. destruct Q as (wc & Q1 & Q). apply (stay_trans wa wc); [exact (stay_same _ _ (iterator_trace _ _ _ _ Q1)) | exact (loop_stay _ _ _ _ Q)].
  - intros wa ta wb Ka Q Bb. apply bind_inv in Q. destruct Q as (wc & Q1 & Q). pose proof (iterator_keeps _ _ _ _ Ka Q1) as Kc. split; [exact (loop_keeps _ _ _ _ _ Kc Q Bb)|]. rewrite Q1. cbn [bind]. exact (IH wc ta wb Kc Q Bb).
  - intros wa ta wb Q. apply bind_inv in Q. destruct Q as (wc & Q1 & Q). rewrite <- (set_iterator_heap _ _ _ _ Q1). exact (emit_loop_heap _ _ _ _ _ Q).
  - cbn [bind]. rewrite E3. cbn [bind]. exact (IH w2 s w' (iterator_keeps _ _ _ _ K1 E3) H BD).
Qed.
End Stay.
