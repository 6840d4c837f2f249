(** Histories of signals, nested emission, and moves. *)
From Coq Require Import Permutation.
From Verif Require Import CellModel CellProofs VectorModel VectorProofs VectorHistory VectorCopy PoolProofs SignalSpec SignalModel SignalProofs SignalEmit.
Open Scope nat_scope.

(** *** Any history keeps the signals consistent *)
Lemma it_any n : it_of (N.to_nat n + 1) = n.
Proof. unfold it_of. replace (N.to_nat n + 1 =? 0) with false by lia. lia. Qed.
Lemma set_iterator_ginv w S s f w' : ginv w S -> set_iterator w s f = Done w' -> exists S', ginv w' S'.
Proof.
  intros (R & GC) E. assert (AL : exists p, nth_error S s = Some (Some p)) by (unfold set_iterator in E; apply bind_inv in E; destruct E as (x & EX & _); exact (sig_at_alive w S s x R EX)). destruct AL as ([L P] & ES).
  destruct (set_iterator_rep w S s L P f (N.to_nat (f (it_of P)) + 1) R ES ltac:(now rewrite it_any)) as (w1 & E1 & R1 & HH & T). rewrite E in E1. injection E1 as <-. eexists. split; [exact R1|].
  intros i Li Pi Ei. rewrite T. rewrite nth_error_upd in Ei. destruct (Nat.eqb_spec i s) as [->|D]; [|exact (GC _ _ _ Ei)]. assert (Hs : s < length S) by (apply nth_error_Some; congruence). replace (s <? length S) with true in Ei by lia. cbn [andb] in Ei. injection Ei as <- <-. exact (GC _ _ _ ES).
Qed.
Lemma simple_ginv w S a w' : ginv w S -> noemit a -> simple_action w a = Done w' -> bounded w' -> exists S', ginv w' S'.
Proof.
  intros G NA E HB. pose proof (simple_heap _ _ _ E) as M0. assert (HV : valid S a) by (pose proof (action_valid w S a w' (proj1 G) E) as V; destruct a; auto; contradiction).
  destruct (step_ginv w S a G ltac:(apply (bounded_le w w' HB); lia) HV) as (w1 & evs & S1 & E' & EF & G1 & _). rewrite E in E'. injection E' as <-. eauto.
Qed.
Lemma perform_ginv emit acts : (forall w t w', emit w t = Done w' -> length (heap w) <= length (heap w')) ->
  (forall w S t w', ginv w S -> emit w t = Done w' -> bounded w' -> exists S', ginv w' S') ->
  forall w S w', ginv w S -> perform emit acts w = Done w' -> bounded w' -> exists S', ginv w' S'.
Proof.
  intros HM HE. induction acts as [|a r IH]; intros w S w' G H HB; cbn [perform] in H; [injection H as <-; eauto|]. apply bind_inv in H. destruct H as (w1 & E1 & H). pose proof (perform_heap emit r HM _ _ H) as M1.
  assert (HB1 : bounded w1) by (apply (bounded_le w1 w' HB); lia). assert (K : exists S1, ginv w1 S1) by (destruct a; [eapply simple_ginv; [exact G | | exact E1 | exact HB1]; exact I | eapply simple_ginv; [exact G | | exact E1 | exact HB1]; exact I | eapply simple_ginv; [exact G | | exact E1 | exact HB1]; exact I | exact (HE _ _ _ _ G E1 HB1)]).
  destruct K as (S1 & G1). exact (IH w1 S1 w' G1 H HB).
Qed.
Lemma loop_ginv beh fuel : forall w S s w', ginv w S -> emit_loop beh fuel w s = Done w' -> bounded w' -> exists S', ginv w' S'.
Proof.
  induction fuel as [|fuel IH]; intros w S s w' G H HB; cbn [emit_loop] in H; [discriminate|]. apply bind_inv in H. destruct H as (x & E & H). destruct (_ <? _)%N; [|injection H as <-; eauto]. apply bind_inv in H. destruct H as ([id|] & E1 & H); [|discriminate].
  apply bind_inv in H. destruct H as (w1 & E2 & H). apply bind_inv in H. destruct H as (w2 & E3 & H). pose proof (emit_loop_heap _ _ _ _ _ H) as M2. rewrite (set_iterator_heap _ _ _ _ E3) in M2.
  apply perform_ginv with (S := S) in E2; [| | | now apply log_call | apply (bounded_le w1 w' HB); lia].
  - destruct E2 as (S1 & G1). destruct (set_iterator_ginv w1 S1 s inc w2 G1 E3) as (S2 & G2). exact (IH w2 S2 s w' G2 H HB).
  - intros wa ta wb K. apply bind_inv in K. destruct K as (wc & K1 & K). rewrite <- (set_iterator_heap _ _ _ _ K1). exact (emit_loop_heap _ _ _ _ _ K).
  - intros wa Sa ta wb Ga K HBb. apply bind_inv in K. destruct K as (wc & K1 & K). destruct (set_iterator_ginv wa Sa ta _ wc Ga K1) as (Sc & Gc). exact (IH wc Sc ta wb Gc K HBb).
Qed.
Lemma emit_ginv beh fuel w S s w' : ginv w S -> emit beh fuel w s = Done w' -> bounded w' -> exists S', ginv w' S'.
Proof.
  intros G H HB. unfold emit in H. apply bind_inv in H. destruct H as (w1 & E & H). destruct (set_iterator_ginv w S s _ w1 G E) as (S1 & G1). exact (loop_ginv beh fuel w1 S1 s w' G1 H HB).
Qed.
Lemma act_ginv beh fuel w S a w' : ginv w S -> act beh fuel w a = Done w' -> bounded w' -> exists S', ginv w' S'.
Proof. intros G H HB. destruct a; [eapply simple_ginv; [exact G | | exact H | exact HB]; exact I | eapply simple_ginv; [exact G | | exact H | exact HB]; exact I | eapply simple_ginv; [exact G | | exact H | exact HB]; exact I |]. exact (emit_ginv _ _ _ _ _ _ G H HB). Qed.

(** *** Signals that do not exist have no slots *)
Definition lives (w : world) (s : nat) : Prop := exists x, nth_error (sigs w) s = Some (Some x).
Definition vacant (w : world) : Prop := forall s, ~ lives w s -> connected (trace w) s = [].
Definition same_lives (w w' : world) : Prop := forall s, lives w s <-> lives w' s.

Lemma lives_at w s x : sig_at w s = Done x -> lives w s.
Proof. unfold sig_at, vget. intros H. destruct (nth_error (sigs w) s) as [[y|]|] eqn:E; try discriminate. exists y. exact E. Qed.
Lemma at_lives w s : lives w s -> exists x, sig_at w s = Done x.
Proof. intros (x & E). exists x. unfold sig_at. now rewrite (vget_some _ _ _ E). Qed.
Lemma put_lives w s x w' : lives w s -> sig_put w s x = Done w' -> same_lives w w' /\ trace w' = trace w.
Proof.
  intros (y & E) H. assert (Hs : s < length (sigs w)) by (apply nth_error_Some; congruence). unfold sig_put in H. rewrite vset_done in H by exact Hs. injection H as <-. split; [|reflexivity]. intros t. unfold lives. cbn [sigs]. rewrite nth_error_upd.
  destruct (Nat.eqb_spec t s) as [->|]; [|reflexivity]. replace (s <? length (sigs w)) with true by lia. cbn [andb]. split; intros _; [exists x; reflexivity | exists y; exact E].
Qed.
Lemma same_refl w : same_lives w w.
Proof. intros s. reflexivity. Qed.
Lemma same_trans a b c : same_lives a b -> same_lives b c -> same_lives a c.
Proof. intros H K s. rewrite (H s). apply K. Qed.
Lemma set_slot_lives w o f w' : set_slot w o f = Done w' -> sigs w' = sigs w /\ trace w' = trace w.
Proof. destruct o; [|discriminate]. cbn [set_slot]. intros H. apply bind_inv in H. destruct H as (? & _ & H). apply bind_inv in H. destruct H as (? & _ & H). now injection H as <-. Qed.
Lemma sigs_lives w w' : sigs w' = sigs w -> same_lives w w'.
Proof. intros E s. unfold lives. now rewrite E. Qed.

Lemma disconnect_lives w s id w' : sig_disconnect w s id = Done w' -> same_lives w w' /\ trace w' = trace w ++ [EDisconnect id].
Proof.
  unfold sig_disconnect. intros H. apply bind_inv in H. destruct H as (x & EX & H). apply lives_at in EX. apply bind_inv in H. destruct H as (sl & _ & H). apply bind_inv in H. destruct H as (? & _ & H). apply bind_inv in H. destruct H as (? & _ & H). destruct (_ || _).
  - apply bind_inv in H. destruct H as (? & _ & H). apply bind_inv in H. destruct H as (? & _ & H). apply bind_inv in H. destruct H as (v1 & _ & H). apply bind_inv in H. destruct H as (o & _ & H). apply bind_inv in H. destruct H as (w1 & E1 & H). apply bind_inv in H. destruct H as (v2 & _ & H). apply bind_inv in H. destruct H as (w2 & E2 & H). injection H as <-.
    apply set_slot_lives in E1. destruct E1 as (E1 & T1). destruct (put_lives w1 s _ w2 ltac:(apply (sigs_lives _ _ E1); exact EX) E2) as (S2 & T2). split; [|cbn [log trace]; now rewrite T2, T1]. apply (same_trans _ w1); [now apply sigs_lives | exact S2].
  - apply bind_inv in H. destruct H as (? & _ & H). apply bind_inv in H. destruct H as (? & _ & H). apply bind_inv in H. destruct H as (v1 & _ & H). apply bind_inv in H. destruct H as (o & _ & H). apply bind_inv in H. destruct H as (w1 & E1 & H). apply bind_inv in H. destruct H as (? & _ & H). apply bind_inv in H. destruct H as (v2 & _ & H). apply bind_inv in H. destruct H as (o2 & _ & H). apply bind_inv in H. destruct H as (w2 & E2 & H).
    apply bind_inv in H. destruct H as (v3 & _ & H). apply bind_inv in H. destruct H as (w3 & E3 & H). injection H as <-. apply set_slot_lives in E1. destruct E1 as (E1 & T1). apply set_slot_lives in E2. destruct E2 as (E2 & T2). rewrite E1 in E2.
    destruct (put_lives w2 s _ w3 ltac:(apply (sigs_lives _ _ E2); exact EX) E3) as (S3 & T3). split; [|cbn [log trace]; now rewrite T3, T2, T1]. apply (same_trans _ w2); [now apply sigs_lives | exact S3].
Qed.
Lemma connect_lives w s w' id : sig_connect w s = Done (w', id) -> lives w s /\ same_lives w w' /\ trace w' = trace w ++ [EConnect s id].
Proof.
  unfold sig_connect. intros H. apply bind_inv in H. destruct H as (x & EX & H). apply lives_at in EX. split; [exact EX|]. apply bind_inv in H. destruct H as ((v & b) & _ & H). apply bind_inv in H. destruct H as (o & _ & H). apply bind_inv in H. destruct H as (w1 & E1 & H). destruct o as [k|]; [|discriminate]. injection H as <- <-.
  apply put_lives in E1; [|exact EX]. destruct E1 as (S1 & T1). split; [exact S1 | cbn [log trace]; now rewrite T1].
Qed.
Lemma clear_lives w s w' : sig_clear w s = Done w' -> same_lives w w' /\ trace w' = trace w ++ [EClear s].
Proof.
  unfold sig_clear. intros H. apply bind_inv in H. destruct H as (x & EX & H). apply lives_at in EX. apply bind_inv in H. destruct H as (v & _ & H). apply bind_inv in H. destruct H as (w1 & E1 & H). injection H as <-. destruct (put_lives w s _ w1 EX E1) as (S1 & T1). split; [exact S1 | cbn [log trace]; now rewrite T1].
Qed.
Lemma simple_vacant w a w' : vacant w -> simple_action w a = Done w' -> vacant w' /\ same_lives w w'.
Proof.
  intros V E. destruct a as [c|s|s|s]; cbn [simple_action] in E.
  - unfold conn_disconnect in E. destruct (lock w (Some c)) as [id|]; [|injection E as <-; split; [exact V | apply same_refl]]. apply bind_inv in E. destruct E as (x & _ & E). apply disconnect_lives in E. destruct E as (SL & T). split; [|exact SL]. intros t HT. rewrite <- (SL t) in HT. rewrite T, connected_app. cbn [fold_left step_connected]. now rewrite (V t HT).
  - apply bind_inv in E. destruct E as ((w1 & id) & E & E'). injection E' as <-. apply connect_lives in E. destruct E as (LS & SL & T). split; [|exact SL]. intros t HT. rewrite <- (SL t) in HT. rewrite T, connected_app. cbn [fold_left step_connected]. destruct (Nat.eqb_spec s t) as [->|]; [contradiction | exact (V t HT)].
  - apply clear_lives in E. destruct E as (SL & T). split; [|exact SL]. intros t HT. rewrite <- (SL t) in HT. rewrite T, connected_app. cbn [fold_left step_connected]. destruct (s =? t); [reflexivity | exact (V t HT)].
  - injection E as <-. split; [exact V | apply same_refl].
Qed.
Lemma set_iterator_vacant w s f w' : vacant w -> set_iterator w s f = Done w' -> vacant w' /\ same_lives w w'.
Proof.
  intros V E. unfold set_iterator in E. apply bind_inv in E. destruct E as (x & EX & E). apply lives_at in EX. apply put_lives in E; [|exact EX]. destruct E as (SL & T). split; [|exact SL]. intros t HT. rewrite T. apply V. now rewrite (SL t).
Qed.
Lemma perform_vacant emit acts : (forall w t w', vacant w -> emit w t = Done w' -> vacant w' /\ same_lives w w') -> forall w w', vacant w -> perform emit acts w = Done w' -> vacant w' /\ same_lives w w'.
Proof.
  intros HE. induction acts as [|a r IH]; intros w w' V H; cbn [perform] in H; [injection H as <-; split; [exact V | apply same_refl]|]. apply bind_inv in H. destruct H as (w1 & E1 & H).
  assert (K : vacant w1 /\ same_lives w w1) by (destruct a; try exact (simple_vacant _ _ _ V E1); exact (HE _ _ _ V E1)). destruct K as (V1 & S1). destruct (IH w1 w' V1 H) as (V2 & S2). split; [exact V2 | exact (same_trans _ _ _ S1 S2)].
Qed.
Lemma call_vacant w id : vacant w -> vacant (log w (ECall id)).
Proof. intros V t HT. cbn [log trace]. rewrite connected_app. exact (V t HT). Qed.
Lemma loop_vacant beh fuel : forall w s w', vacant w -> emit_loop beh fuel w s = Done w' -> vacant w' /\ same_lives w w'.
Proof.
  induction fuel as [|fuel IH]; intros w s w' V H; cbn [emit_loop] in H; [discriminate|]. apply bind_inv in H. destruct H as (x & E & H). destruct (_ <? _)%N; [|injection H as <-; split; [exact V | apply same_refl]]. apply bind_inv in H. destruct H as ([id|] & E1 & H); [|discriminate].
  apply bind_inv in H. destruct H as (w1 & E2 & H). apply bind_inv in H. destruct H as (w2 & E3 & H). apply perform_vacant in E2; [| | now apply call_vacant].
  - destruct E2 as (V1 & S1). destruct (set_iterator_vacant _ _ _ _ V1 E3) as (V2 & S2). destruct (IH _ _ _ V2 H) as (V3 & S3). split; [exact V3|]. apply (same_trans _ w1); [exact S1 | exact (same_trans _ _ _ S2 S3)].
  - intros wa ta wb Va K. apply bind_inv in K. destruct K as (wc & K1 & K). destruct (set_iterator_vacant _ _ _ _ Va K1) as (Vc & Sc). destruct (IH _ _ _ Vc K) as (Vb & Sb). split; [exact Vb | exact (same_trans _ _ _ Sc Sb)].
Qed.
Lemma emit_vacant beh fuel w s w' : vacant w -> emit beh fuel w s = Done w' -> vacant w' /\ same_lives w w'.
Proof. intros V H. unfold emit in H. apply bind_inv in H. destruct H as (w1 & E & H). destruct (set_iterator_vacant _ _ _ _ V E) as (V1 & S1). destruct (loop_vacant _ _ _ _ _ V1 H) as (V2 & S2). split; [exact V2 | exact (same_trans _ _ _ S1 S2)]. Qed.
Lemma act_vacant beh fuel w a w' : vacant w -> act beh fuel w a = Done w' -> vacant w' /\ same_lives w w'.
Proof. intros V H. destruct a; try exact (simple_vacant _ _ _ V H). exact (emit_vacant _ _ _ _ _ V H). Qed.

(** *** Creation, destruction, moves *)
Definition keeps (w : world) : Prop := (exists S, ginv w S) /\ vacant w.
Lemma lives_rep w S s : wrep w S -> (lives w s <-> exists L P, nth_error S s = Some (Some (L, P))).
Proof.
  intros R. split.
  - intros (x & E). destruct (sig_at_alive w S s x R) as ([L P] & EP); [unfold sig_at; now rewrite (vget_some _ _ _ E) | eauto].
  - intros (L & P & E). destruct (rep_sig w S s L P R E) as (x & _ & _ & _ & N). exists x. exact N.
Qed.
Lemma start_keeps n : keeps (start n).
Proof.
  split; [|intros s _; reflexivity]. exists (repeat (Some ([], 1)) n). split; [split; [|split]|].
  - unfold start. cbn [sigs]. induction n as [|n IH]; cbn [repeat]; constructor; [|exact IH]. split; [exact hv_new | reflexivity].
  - intros i L P k id E N. apply nth_error_In, repeat_spec in E. injection E as -> ->. now destruct k.
  - constructor.
  - intros s L P E. apply nth_error_In, repeat_spec in E. injection E as -> ->. reflexivity.
Qed.
Lemma act_keeps beh fuel w a w' : keeps w -> act beh fuel w a = Done w' -> bounded w' -> keeps w'.
Proof. intros ((S & G) & V) E HB. split; [exact (act_ginv _ _ _ _ _ _ G E HB) | exact (proj1 (act_vacant _ _ _ _ _ V E))]. Qed.
Lemma new_keeps w : keeps w -> keeps (sig_new w).
Proof.
  intros ((S & (HF & HI & HL) & G) & V). pose proof (Forall2_len _ _ _ HF) as LN. split.
  - exists (S ++ [Some ([], 1)]). split; [split; [|split]|].
    + cbn [sig_new sigs]. apply Forall2_app; [exact HF|]. constructor; [|constructor]. split; [exact hv_new | reflexivity].
    + intros i L P k id E N. cbn [sig_new heap]. destruct (Nat.lt_ge_cases i (length S)) as [Hi|Hi].
      * rewrite nth_error_app1 in E by exact Hi. exact (HI _ _ _ _ _ E N).
      * rewrite nth_error_app2 in E by exact Hi. destruct (i - length S) as [|m]; [injection E as <- <-; now destruct k | now destruct m].
    + exact HL.
    + intros s L P E. cbn [sig_new trace]. destruct (Nat.lt_ge_cases s (length S)) as [Hi|Hi].
      * rewrite nth_error_app1 in E by exact Hi. exact (G _ _ _ E).
      * rewrite nth_error_app2 in E by exact Hi. destruct (s - length S) as [|m]; [injection E as <- <- | now destruct m]. rewrite V; [reflexivity|]. intros (x & K). assert (s < length (sigs w)) by (apply nth_error_Some; congruence). lia.
  - intros s H. apply V. intros (x & K). apply H. exists x. cbn [sig_new sigs]. rewrite nth_error_app1; [exact K | apply nth_error_Some; congruence].
Qed.
Lemma hv_destroy v q : hv v q -> exists m, fv_destroy true v = Done m /\ Forall (fun c => c = Raw) m.
Proof.
  intros [(-> & L)| ->].
  - unfold fv_destroy. rewrite clear_inl by assumption. eexists. split; [reflexivity|]. apply Forall_forall. intros x H. now apply repeat_spec in H.
  - eexists. split; [reflexivity|]. apply Forall_forall. intros x H. now apply repeat_spec in H.
Qed.
Lemma destroy_keeps w s : keeps w -> lives w s -> exists w', sig_destroy w s = Done w' /\ keeps w' /\ trace w' = trace w ++ [EClear s] /\ heap w' = heap w /\ forall t, lives w' t <-> lives w t /\ t <> s.
Proof.
  intros ((S & R & G) & V) LV. pose proof R as (HF & HI & HL). destruct (proj1 (lives_rep w S s R) LV) as (L & P & ES). destruct (rep_sig w S s L P R ES) as (x & EX & HV & _ & N). destruct (hv_destroy _ _ HV) as (m & EM & FM). assert (Hs : s < length (sigs w)) by (apply nth_error_Some; congruence). assert (HS : s < length S) by (apply nth_error_Some; congruence).
  unfold sig_destroy. rewrite EX. cbn [bind]. rewrite EM. cbn [bind]. rewrite vset_done by exact Hs. cbn [bind]. eexists. split; [reflexivity|].
  assert (LL : forall t, lives (log (W (upd (sigs w) s None) (heap w) (leaked w ++ m) (trace w)) (EClear s)) t <-> lives w t /\ t <> s).
  { intros t. unfold lives. cbn [log sigs]. rewrite nth_error_upd. destruct (Nat.eqb_spec t s) as [->|D]; [replace (s <? length (sigs w)) with true by lia; cbn [andb]; split; [intros (y & K); discriminate | intros (_ & K); congruence]|]. cbn [andb]. tauto. }
  split; [|split; [reflexivity|]; split; [reflexivity | exact LL]]. split.
  - exists (upd S s None). split; [split; [|split]|].
    + cbn [log sigs]. apply Forall2_upd; [exact HF | exact I].
    + intros i Li Pi k id E K. cbn [log heap]. rewrite nth_error_upd in E. destruct (Nat.eqb_spec i s) as [->|D]; [|exact (HI _ _ _ _ _ E K)]. replace (s <? length S) with true in E by lia. discriminate E.
    + cbn [log leaked]. apply Forall_app. split; assumption.
    + intros i Li Pi E. cbn [log trace]. rewrite connected_app. cbn [fold_left step_connected]. rewrite nth_error_upd in E. rewrite (Nat.eqb_sym s i). destruct (Nat.eqb_spec i s) as [->|D]; [|exact (G _ _ _ E)]. replace (s <? length S) with true in E by lia. discriminate E.
  - intros t HT. cbn [log trace]. rewrite connected_app. cbn [fold_left step_connected]. rewrite LL in HT. destruct (Nat.eqb_spec s t) as [->|D]; [reflexivity|]. apply V. intros K. apply HT. split; [exact K | congruence].
Qed.

(** The slots of a signal are in the std::vector. *)
Definition spilled (w : world) (s : nat) : Prop := exists x, nth_error (sigs w) s = Some (Some x) /\ m_size (m_slots x) = FallbackInUse.
Definition movable (w : world) (d s : nat) : Prop := (connected (trace w) s = [] /\ ~ spilled w s) \/ (spilled w s /\ (spilled w d \/ connected (trace w) d = [])).
Lemma hv_spilled v q : hv v q -> m_size v = FallbackInUse -> v = spl 1 q.
Proof. intros [(-> & _)| ->] H; [destruct q; discriminate | reflexivity]. Qed.

(** What the last loop of operator= does. *)
Lemma retarget_slots d s L : NoDup L -> forall vd w, hv vd (map Some L) -> (forall k id, nth_error L k = Some id -> nth_error (heap w) id = Some (Slot s k)) ->
  exists w', foreach (range 0 (fv_size true vd)) (fun w i => o <- fv_load true vd i ;; set_slot w o (set_signal d)) w = Done w' /\ sigs w' = sigs w /\ leaked w' = leaked w /\ trace w' = trace w /\ length (heap w') = length (heap w) /\
  (forall k id, nth_error L k = Some id -> nth_error (heap w') id = Some (Slot d k)) /\ (forall id, ~ In id L -> nth_error (heap w') id = nth_error (heap w) id).
Proof.
  intros ND vd w HV HI. rewrite (hv_size _ _ HV), map_length.
  destruct (foreach_range (fun i w' => sigs w' = sigs w /\ leaked w' = leaked w /\ trace w' = trace w /\ length (heap w') = length (heap w) /\
    (forall k id, nth_error L k = Some id -> nth_error (heap w') id = Some (Slot (if k <? i then d else s) k)) /\ (forall id, ~ In id L -> nth_error (heap w') id = nth_error (heap w) id))
    (fun w i => o <- fv_load true vd i ;; set_slot w o (set_signal d)) 0 (length L) w) as (w' & E' & Hsi & Hle & Htr & Hlen & HIn & HOut).
  - lia.
  - repeat split; auto.
  - intros i w1 Hi (Hsi & Hle & Htr & Hlen & HIn & HOut). rewrite (hv_load _ _ i HV) by (rewrite map_length; lia). cbn [bind]. rewrite nth_map_some by lia. set (id := nth i L 0). assert (NI : nth_error L i = Some id) by (apply nth_at; lia).
    rewrite (set_slot_done _ _ _ _ (HIn _ _ NI)). eexists. split; [reflexivity|]. cbn [sigs leaked trace heap]. rewrite upd_length. repeat split; auto.
    + intros k id' Nk. rewrite nth_error_upd. destruct (Nat.eqb_spec id' id) as [->|D].
      * assert (k = i) by (apply (proj1 (NoDup_nth_error L) ND); [apply nth_error_Some; congruence | congruence]). subst k. replace (id <? length (heap w1)) with true by (symmetry; apply Nat.ltb_lt; apply nth_error_Some; rewrite (HIn _ _ NI); discriminate). cbn [andb]. unfold set_signal. cbn [slot_index]. now replace (i <? i + 1) with true by lia.
      * cbn [andb]. rewrite (HIn _ _ Nk). destruct (Nat.eq_dec k i) as [->|]; [congruence|]. f_equal. f_equal. replace (k <? i + 1) with (k <? i) by lia. reflexivity.
    + intros id' HN. rewrite nth_error_upd. destruct (Nat.eqb_spec id' id) as [->|D]; [exfalso; apply HN; exact (nth_error_In _ _ NI)|]. cbn [andb]. now apply HOut.
  - exists w'. repeat split; auto. intros k id Nk. rewrite (HIn _ _ Nk). replace (k <? length L) with true; [reflexivity|]. symmetry. apply Nat.ltb_lt. apply nth_error_Some. congruence.
Qed.

Lemma move_slots w S d s Ld Pd Ls Ps : wrep w S -> (forall i L P, nth_error S i = Some (Some (L, P)) -> Permutation L (connected (trace w) i)) -> d <> s -> movable w d s -> nth_error S d = Some (Some (Ld, Pd)) -> nth_error S s = Some (Some (Ls, Ps)) ->
  exists vd vs, fv_move_assign true 1 (map (fun o => match o with Some x => m_slots x | None => fv_new 1 end) (sigs w)) d s = Done (upd (upd (map (fun o => match o with Some x => m_slots x | None => fv_new 1 end) (sigs w)) d vd) s vs) /\ hv vd (map Some Ls) /\ hv vs [].
Proof.
  intros R G Hds HM ED ES. destruct (rep_sig w S d Ld Pd R ED) as (x & _ & HVd & _ & Nd). destruct (rep_sig w S s Ls Ps R ES) as (y & _ & HVs & _ & Ns). set (st := map _ (sigs w)).
  assert (Sd : nth_error st d = Some (m_slots x)) by (unfold st; now rewrite nth_error_map, Nd). assert (Ss : nth_error st s = Some (m_slots y)) by (unfold st; now rewrite nth_error_map, Ns).
  assert (EQ : forall i L P, nth_error S i = Some (Some (L, P)) -> connected (trace w) i = [] -> L = []) by (intros i L P E C; pose proof (G _ _ _ E) as K; rewrite C in K; now apply Permutation_nil, Permutation_sym).
  destruct HVs as [(E & LE)|E].
  - assert (Ls = []) as ->. { destruct HM as [(C & _)|((y' & Ny & F) & _)]; [exact (EQ _ _ _ ES C)|]. rewrite Ns in Ny. injection Ny as <-. rewrite E in F. destruct Ls; discriminate. }
    rewrite E in Ss. cbn [map] in Ss. destruct HVd as [(EV & LV)|EV]; rewrite EV in Sd.
    + rewrite (move_assign_from_inline true 1 st d s (inl 1) (map Some Ld) [] Hds (or_introl eq_refl) (or_introl LV) Sd Ss (Nat.le_0_l 1)). eexists _, _. split; [reflexivity|]. split; left; (split; [reflexivity | cbn; lia]).
    + rewrite (move_assign_from_inline true 1 st d s (spl 1) (map Some Ld) [] Hds (or_intror (conj eq_refl eq_refl)) (or_intror eq_refl) Sd Ss (Nat.le_0_l 1)). eexists _, _. split; [reflexivity|]. split; [now right|]. left; (split; [reflexivity | cbn; lia]).
  - rewrite E in Ss. rewrite (move_assign_from_spilled true 1 st d s _ _ eq_refl Hds Sd Ss). eexists _, _. split; [reflexivity|]. split; [|now right]. right. unfold spl. f_equal.
    destruct HVd as [(EV & LV)|EV]; rewrite EV; [|reflexivity]. assert (Ld = []) as ->; [|reflexivity]. destruct HM as [(_ & C)|(_ & [(x' & Nx & F)|C])].
    + exfalso. apply C. exists y. split; [exact Ns | now rewrite E].
    + rewrite Nd in Nx. injection Nx as <-. rewrite EV in F. destruct Ld; discriminate.
    + exact (EQ _ _ _ ED C).
Qed.

Lemma move_keeps w d s : keeps w -> lives w d -> lives w s -> d <> s -> movable w d s ->
  exists w', sig_move_assign w d s = Done w' /\ keeps w' /\ trace w' = trace w ++ [EMove d s] /\ length (heap w') = length (heap w) /\ same_lives w w'.
Proof.
  intros ((S & R & G) & V) LD LS Hds HM. pose proof R as (HF & HI & HL). destruct (proj1 (lives_rep w S d R) LD) as (Ld & Pd & ED). destruct (proj1 (lives_rep w S s R) LS) as (Ls & Ps & ES).
  destruct (rep_sig w S d Ld Pd R ED) as (x & EX & HVd & _ & Nd). destruct (rep_sig w S s Ls Ps R ES) as (y & EY & HVs & IY & Ns). destruct (move_slots w S d s Ld Pd Ls Ps R G Hds HM ED ES) as (vd & vs & EM & Hd & Hs).
  assert (D1 : d < length (sigs w)) by (apply nth_error_Some; congruence). assert (S1 : s < length (sigs w)) by (apply nth_error_Some; congruence). assert (D2 : d < length S) by (apply nth_error_Some; congruence). assert (S2 : s < length S) by (apply nth_error_Some; congruence).
  unfold sig_move_assign. rewrite EX, EY. cbn [bind]. rewrite EM. cbn [bind]. set (st := map _ (sigs w)) in *. assert (LT : length st = length (sigs w)) by apply map_length.
  rewrite (vget_some _ s vs) by (rewrite nth_error_upd, Nat.eqb_refl, upd_length; now replace (s <? length st) with true by lia). cbn [bind]. unfold sig_put at 1. rewrite vset_done by exact S1. cbn [bind].
  rewrite (vget_some _ d vd) by (rewrite nth_error_upd; replace (d =? s) with false by lia; cbn [andb]; rewrite nth_error_upd, Nat.eqb_refl; now replace (d <? length st) with true by lia). cbn [bind]. unfold sig_put. cbn [sigs heap leaked trace]. rewrite vset_done by (rewrite upd_length; exact D1). cbn [bind].
  set (w1 := W _ (heap w) (leaked w) (trace w)). destruct (retarget_slots d s Ls (slots_nodup _ _ _ _ _ HI ES) vd w1 Hd) as (w2 & E2 & Hsi & Hle & Htr & Hlen & HIn & HOut); [intros k id Nk; exact (HI _ _ _ _ _ ES Nk)|].
  rewrite E2. cbn [bind]. eexists. split; [reflexivity|].
  assert (SL : same_lives w (log w2 (EMove d s))).
  { intros t. unfold lives. cbn [log sigs]. rewrite Hsi. unfold w1. cbn [sigs]. rewrite nth_error_upd, nth_error_upd, upd_length. destruct (Nat.eqb_spec t d) as [->|D]; [replace (d <? length (sigs w)) with true by lia; cbn [andb]; split; intros _; [eexists; reflexivity | exists x; exact Nd]|]. cbn [andb]. destruct (Nat.eqb_spec t s) as [->|D']; [replace (s <? length (sigs w)) with true by lia; cbn [andb]; split; intros _; [eexists; reflexivity | exists y; exact Ns] | reflexivity]. }
  split; [|split; [cbn [log trace]; now rewrite Htr|]; split; [exact Hlen | exact SL]]. split.
  - exists (upd (upd S s (Some ([], Ps))) d (Some (Ls, Ps))). split; [split; [|split]|].
    + cbn [log sigs]. rewrite Hsi. unfold w1. cbn [sigs]. apply Forall2_upd; [apply Forall2_upd; [exact HF | split; assumption] | split; assumption].
    + intros i Li Pi k id E K. cbn [log heap]. rewrite nth_error_upd, nth_error_upd, upd_length in E. destruct (Nat.eqb_spec i d) as [->|D].
      * replace (d <? length S) with true in E by lia. cbn [andb] in E. injection E as <- <-. exact (HIn _ _ K).
      * cbn [andb] in E. destruct (Nat.eqb_spec i s) as [->|D']; [replace (s <? length S) with true in E by lia; cbn [andb] in E; injection E as <- <-; now destruct k|]. cbn [andb] in E.
        rewrite HOut; [exact (HI _ _ _ _ _ E K)|]. intros C. apply In_nth_error in C. destruct C as (k' & C). pose proof (HI _ _ _ _ _ E K) as A1. rewrite (HI _ _ _ _ _ ES C) in A1. injection A1 as A1 A2. congruence.
    + cbn [log leaked]. rewrite Hle. exact HL.
    + intros i Li Pi E. cbn [log trace]. rewrite Htr, connected_app. cbn [fold_left step_connected]. unfold w1. cbn [trace]. rewrite nth_error_upd, nth_error_upd, upd_length in E. rewrite (Nat.eqb_sym d i), (Nat.eqb_sym s i). destruct (Nat.eqb_spec i d) as [->|D].
      * replace (d <? length S) with true in E by lia. cbn [andb] in E. injection E as <- <-. exact (G _ _ _ ES).
      * cbn [andb] in E. destruct (Nat.eqb_spec i s) as [->|D']; [replace (s <? length S) with true in E by lia; cbn [andb] in E; injection E as <- <-; reflexivity | exact (G _ _ _ E)].
  - intros t HT. rewrite <- (SL t) in HT. cbn [log trace]. rewrite Htr, connected_app. cbn [fold_left step_connected]. unfold w1. cbn [trace]. destruct (Nat.eqb_spec d t) as [->|D]; [contradiction|]. destruct (s =? t); [reflexivity | exact (V t HT)].
Qed.

(** *** Emission in which callbacks do nothing, or emit *)
Lemma skipn_step {B} (l : list B) : forall k x, nth_error l k = Some x -> skipn k l = x :: skipn (S k) l.
Proof. induction l as [|y l IH]; intros [|k] x H; try discriminate; [now injection H as -> | exact (IH k x H)]. Qed.
Section Quiet.
Variables (beh : list event -> nat -> list action) (s : nat).

Lemma advance w S L P : ginv w S -> bounded w -> nth_error S s = Some (Some (L, P)) -> P <= length L + 2 -> exists w1, set_iterator w s inc = Done w1 /\ ginv w1 (upd S s (Some (L, P + 1))) /\ heap w1 = heap w /\ trace w1 = trace w.
Proof.
  intros (R & GC) HB ES HP. pose proof (slots_size _ _ _ _ _ (proj1 (proj2 R)) ES) as HN. destruct (set_iterator_rep w S s L P inc (P + 1) R ES ltac:(apply inc_it; unfold bounded in HB; lia)) as (w1 & E1 & R1 & HH & T1). exists w1. split; [exact E1|]. split; [|auto]. split; [exact R1|].
  intros i Li Pi Ei. rewrite T1. rewrite nth_error_upd in Ei. destruct (Nat.eqb_spec i s) as [->|D]; [|exact (GC _ _ _ Ei)]. assert (Hs : s < length S) by (apply nth_error_Some; congruence). replace (s <? length S) with true in Ei by lia. cbn [andb] in Ei. injection Ei as <- <-. exact (GC _ _ _ ES).
Qed.

Lemma quiet_run m : forall fuel w S L P, ginv w S -> bounded w -> nth_error S s = Some (Some (L, P)) -> 1 <= P -> P - 1 + m <= length L -> (forall tr id, length (trace w) < length tr <= length (trace w) + m -> beh tr id = []) ->
  exists w1 S1, emit_loop beh (m + fuel) w s = emit_loop beh fuel w1 s /\ ginv w1 S1 /\ length S1 = length S /\ nth_error S1 s = Some (Some (L, P + m)) /\ heap w1 = heap w /\ trace w1 = trace w ++ map ECall (firstn m (skipn (P - 1) L)).
Proof.
  induction m as [|m IH]; intros fuel w S L P G HB ES HP HL HQ.
  - exists w, S. rewrite Nat.add_0_r, firstn_O, app_nil_r. auto 8.
  - cbn [Nat.add emit_loop]. destruct (loop_head s w S L P (proj1 G) ES HP) as (x & EX & EC & EA). rewrite EX. cbn [bind]. rewrite EC. replace (P <=? length L) with true by lia. rewrite (EA ltac:(lia)). cbn [bind]. set (id := nth (P - 1) L 0).
    rewrite (HQ (trace (log w (ECall id))) id) by (cbn [log trace]; rewrite app_length; cbn [length]; lia). cbn [perform bind].
    destruct (advance (log w (ECall id)) S L P (log_call w S id G) HB ES ltac:(lia)) as (w1 & E1 & G1 & HH1 & T1). rewrite E1. cbn [bind]. assert (Hs : s < length S) by (apply nth_error_Some; congruence).
    destruct (IH fuel w1 (upd S s (Some (L, P + 1))) L (P + 1) G1 ltac:(unfold bounded; rewrite HH1; exact HB)) as (w2 & S2 & E2 & G2 & L2 & ES2 & HH2 & T2).
    + rewrite nth_error_upd, Nat.eqb_refl. now replace (s <? length S) with true by lia.
    + lia.
    + lia.
    + intros tr k HT. apply HQ. rewrite T1 in HT. cbn [log trace] in HT. rewrite app_length in HT. cbn [length] in HT. lia.
    + exists w2, S2. split; [exact E2|]. split; [exact G2|]. split; [now rewrite L2, upd_length|]. split; [rewrite ES2; do 3 f_equal; lia|]. split; [now rewrite HH2, HH1|]. rewrite T2, T1. cbn [log trace]. rewrite <- app_assoc. f_equal. cbn [app].
      assert (NI : nth_error L (P - 1) = Some id) by (apply nth_at; lia). rewrite (skipn_step L _ _ NI). replace (P + 1 - 1) with (Datatypes.S (P - 1)) by lia. reflexivity.
Qed.

Lemma quiet_loop fuel w S L P : ginv w S -> bounded w -> nth_error S s = Some (Some (L, P)) -> 1 <= P <= length L + 1 -> (forall tr id, length (trace w) < length tr -> beh tr id = []) -> length L < P + fuel - 1 ->
  exists w1 S1, emit_loop beh fuel w s = Done w1 /\ ginv w1 S1 /\ length S1 = length S /\ nth_error S1 s = Some (Some (L, length L + 1)) /\ heap w1 = heap w /\ trace w1 = trace w ++ map ECall (skipn (P - 1) L).
Proof.
  intros G HB ES HP HQ HF. set (m := length L + 1 - P). replace fuel with (m + (fuel - m)) by lia. destruct (quiet_run m (fuel - m) w S L P G HB ES) as (w1 & S1 & E1 & G1 & L1 & ES1 & HH1 & T1); try lia; [intros tr id HT; apply HQ; lia|].
  exists w1, S1. rewrite E1. replace (P + m) with (length L + 1) in ES1 by lia. destruct (fuel - m) as [|f] eqn:EF; [lia|]. cbn [emit_loop]. destruct (loop_head s w1 S1 L _ (proj1 G1) ES1 ltac:(lia)) as (x & EX & EC & _). rewrite EX. cbn [bind]. rewrite EC. replace (length L + 1 <=? length L) with false by lia.
  split; [reflexivity|]. repeat (split; [assumption|]). rewrite T1. do 2 f_equal. apply firstn_all2. rewrite skipn_length. lia.
Qed.

(** The callback of position [k] emits again, and nothing else happens. *)
Lemma nested fuel w S L P k : ginv w S -> bounded w -> nth_error S s = Some (Some (L, P)) -> k < length L ->
  (forall tr id, beh tr id = if length tr =? length (trace w) + k + 1 then [AEmit s] else []) -> 2 * length L + 3 <= fuel ->
  exists w', emit beh fuel w s = Done w' /\ heap w' = heap w /\ trace w' = trace w ++ map ECall (firstn (k + 1) L ++ L).
Proof.
  intros G HB ES HK HQ HF. unfold emit. destruct (restart w S s L P G ES) as (w1 & E1 & G1 & HH1 & T1). rewrite E1. cbn [bind]. assert (Hs : s < length S) by (apply nth_error_Some; congruence). set (S1 := upd S s (Some (L, 1))) in *.
  assert (ES1 : nth_error S1 s = Some (Some (L, 1))) by (unfold S1; rewrite nth_error_upd, Nat.eqb_refl; now replace (s <? length S) with true by lia).
  replace fuel with (k + (1 + (fuel - k - 1))) by lia. destruct (quiet_run k (1 + (fuel - k - 1)) w1 S1 L 1 G1 ltac:(unfold bounded; rewrite HH1; exact HB) ES1) as (w2 & S2 & E2 & G2 & L2 & ES2 & HH2 & T2); try lia.
  { intros tr id HT. rewrite HQ. rewrite T1 in HT. now replace (length tr =? length (trace w) + k + 1) with false by lia. }
  rewrite E2. cbn [Nat.add emit_loop]. destruct (loop_head s w2 S2 L _ (proj1 G2) ES2 ltac:(lia)) as (x & EX & EC & EA). rewrite EX. cbn [bind]. rewrite EC. replace (1 + k <=? length L) with true by lia. rewrite (EA ltac:(lia)). cbn [bind]. replace (1 + k - 1) with k by lia. set (id := nth k L 0).
  cbn [Nat.sub skipn] in T2. assert (LT : length (trace (log w2 (ECall id))) = length (trace w) + k + 1) by (cbn [log trace]; rewrite T2, T1, !app_length, map_length, firstn_length; cbn [length]; lia).
  rewrite HQ, LT, Nat.eqb_refl. cbn [perform]. assert (HB2 : bounded w2) by (unfold bounded; rewrite HH2, HH1; exact HB).
  destruct (restart (log w2 (ECall id)) S2 s L _ (log_call w2 S2 id G2) ES2) as (w3 & E3 & G3 & HH3 & T3). rewrite E3. cbn [bind]. assert (Hs2 : s < length S2) by (apply nth_error_Some; congruence). set (S3 := upd S2 s (Some (L, 1))) in *.
  assert (ES3 : nth_error S3 s = Some (Some (L, 1))) by (unfold S3; rewrite nth_error_upd, Nat.eqb_refl; now replace (s <? length S2) with true by lia).
  destruct (quiet_loop (fuel - k - 1) w3 S3 L 1 G3 ltac:(unfold bounded; rewrite HH3; exact HB2) ES3 ltac:(lia)) as (w4 & S4 & E4 & G4 & L4 & ES4 & HH4 & T4).
  { intros tr i HT. rewrite HQ. rewrite T3, LT in HT. now replace (length tr =? length (trace w) + k + 1) with false by lia. } { lia. }
  rewrite E4. cbn [bind]. assert (HB4 : bounded w4) by (unfold bounded; rewrite HH4, HH3; exact HB2). destruct (advance w4 S4 L _ G4 HB4 ES4 ltac:(lia)) as (w5 & E5 & G5 & HH5 & T5). rewrite E5. cbn [bind]. assert (Hs4 : s < length S4) by (apply nth_error_Some; congruence).
  assert (ES5 : nth_error (upd S4 s (Some (L, length L + 1 + 1))) s = Some (Some (L, length L + 1 + 1))) by (rewrite nth_error_upd, Nat.eqb_refl; now replace (s <? length S4) with true by lia).
  destruct (fuel - k - 1) as [|f] eqn:EF; [lia|]. cbn [emit_loop]. destruct (loop_head s w5 _ L _ (proj1 G5) ES5 ltac:(lia)) as (y & EY & EC5 & _). rewrite EY. cbn [bind]. rewrite EC5. replace (length L + 1 + 1 <=? length L) with false by lia.
  exists w5. split; [reflexivity|]. split; [rewrite HH5, HH4, HH3; cbn [log heap]; rewrite HH2; exact HH1|]. rewrite T5, T4, T3. cbn [log trace Nat.sub skipn]. rewrite T2, T1, map_app, !app_assoc. f_equal. rewrite <- !app_assoc. f_equal.
  rewrite (firstn_next L k 0) by exact HK. rewrite map_app. reflexivity.
Qed.
End Quiet.
