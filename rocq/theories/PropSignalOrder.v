(** Property C150: the order in which the slots of a signal are called. *)
From Coq Require Import Permutation.
From Verif Require Import SignalSpec SignalModel SignalProofs SignalEmit SignalHistory SignalThrowModel PropSignal SignalOrderSpec SignalOrder.
Open Scope nat_scope.
Local Ltac crunch := repeat match goal with |- _ /\ _ => split end; (vm_compute; reflexivity).

(** A signal that is emitted now calls these slots, in this order, if the callbacks leave the signals alone. *)
Definition would_call (w : world) (s : nat) (l : list nat) : Prop :=
  forall beh fuel, silent beh -> length l < fuel -> exists w', emit beh fuel w s = Done w' /\ trace w' = trace w ++ map ECall l.
(** Programs whose callbacks leave the signals alone: connections, disconnections, Clear and emissions, of any number of signals. *)
Inductive calm : world -> Prop :=
| c_start n : calm (start n)
| c_act beh fuel a w w' : calm w -> silent beh -> act beh fuel w a = Done w' -> bounded w' -> calm w'.

Lemma calm_reached w : calm w -> reached w.
Proof. intros H. induction H as [n|beh fuel a w w' H IH HS E HB]; [apply r_start | exact (r_act beh fuel a w w' IH E HB)]. Qed.
Lemma connected_nodup w s : reached w -> NoDup (connected (trace w) s).
Proof.
  intros H. destruct (reached_keeps w H) as (((S & R & G) & V) & _). destruct (nth_error (sigs w) s) as [[x|]|] eqn:E; [|rewrite V; [constructor|]; intros (y & Y); congruence..].
  destruct (proj1 (lives_rep w S s R) (ex_intro _ x E)) as (L & P & ES). apply (Permutation_NoDup (G _ _ _ ES)). exact (slots_nodup _ _ _ _ _ (proj1 (proj2 R)) ES).
Qed.
Lemma would_call_rep w S s L P : ginv w S -> bounded w -> nth_error S s = Some (Some (L, P)) -> would_call w s L.
Proof. intros G HB ES beh fuel HS HF. destruct (calm_emit beh fuel w S s L P HS G HB ES HF) as (w' & E & _ & _ & T). eauto. Qed.
Lemma map_call_inj l l' : map ECall l = map ECall l' -> l = l'.
Proof. revert l'. induction l as [|x l IH]; intros [|y l'] H; try discriminate; [reflexivity|]. cbn [map] in H. injection H as -> H. f_equal. now apply IH. Qed.

Lemma act_valid beh fuel w S a w' : ginv w S -> act beh fuel w a = Done w' -> (exists s L P, a = AEmit s /\ nth_error S s = Some (Some (L, P))) \/ valid S a /\ simple_action w a = Done w'.
Proof.
  intros G E. destruct a as [id|s|s|s]; cbn [act simple_action valid] in *.
  - right. split; [exact I | exact E].
  - right. split; [|exact E]. apply bind_inv in E. destruct E as ((w1 & id) & E & _). unfold sig_connect in E. apply bind_inv in E. destruct E as (x & E & _). exact (sig_at_alive w S s x (proj1 G) E).
  - right. split; [|exact E]. unfold sig_clear in E. apply bind_inv in E. destruct E as (x & E & _). exact (sig_at_alive w S s x (proj1 G) E).
  - left. unfold emit, set_iterator in E. apply bind_inv in E. destruct E as (w1 & E & _). apply bind_inv in E. destruct E as (x & E & _). destruct (sig_at_alive w S s x (proj1 G) E) as ([L P] & ES). eauto.
Qed.
Lemma calm_settled w : calm w -> exists S, settled w S.
Proof.
  intros H. induction H as [n|beh fuel a w w' H (S & ST) HS E HB]; [exists (repeat (Some ([], 1)) n); apply settled_start|]. pose proof (proj2 (reached_keeps w (calm_reached w H))) as BD.
  destruct (act_valid beh fuel w S a w' (proj1 ST) E) as [(s & L & P & -> & ES)|(HV & EA)].
  - cbn [act] in E. pose proof (calm_emit_enough beh fuel w S s L P w' HS (proj1 ST) BD ES E) as HF. destruct (settled_emit beh fuel w S s L P HS ST BD ES HF) as (w1 & E1 & ST1 & _). rewrite E in E1. injection E1 as <-. eauto.
  - destruct (settled_action w S a ST BD HV) as (w1 & S1 & evs & E1 & ST1 & _). rewrite EA in E1. injection E1 as <-. eauto.
Qed.

(** *** Any program *)
(** At any time there is one order, which an emission without changes does not affect. *)
Theorem C150_one_order w s : reached w -> lives w s ->
  exists l, would_call w s l /\ Permutation l (connected (trace w) s) /\ (forall l', would_call w s l' -> l' = l) /\
    forall beh fuel w', silent beh -> emit beh fuel w s = Done w' -> would_call w' s l.
Proof.
  intros H LV. destruct (reached_keeps w H) as (((S & G) & V) & BD). destruct (proj1 (lives_rep w S s (proj1 G)) LV) as (L & P & ES). pose proof (would_call_rep w S s L P G BD ES) as WC. exists L. split; [exact WC|]. split; [exact (proj2 G _ _ _ ES)|]. split.
  - intros l' W'. set (beh := fun (_ : list event) (_ : nat) => @nil action). set (fuel := length L + length l' + 1). destruct (WC beh fuel) as (w1 & E1 & T1); [intros tr id; reflexivity | lia|]. destruct (W' beh fuel) as (w2 & E2 & T2); [intros tr id; reflexivity | lia|].
    rewrite E1 in E2. injection E2 as <-. rewrite T1 in T2. apply app_inv_head in T2. symmetry. now apply map_call_inj.
  - intros beh fuel w' HS E. pose proof (calm_emit_enough beh fuel w S s L P w' HS G BD ES E) as HF. destruct (calm_emit beh fuel w S s L P HS G BD ES HF) as (w1 & E1 & G1 & HH & _). rewrite E in E1. injection E1 as <-. assert (Hs : s < length S) by (apply nth_error_Some; congruence).
    apply (would_call_rep w' (upd S s (Some (L, length L + 1))) s L (length L + 1) G1); [unfold bounded; now rewrite HH|]. rewrite nth_error_upd, Nat.eqb_refl. now replace (s <? length S) with true by lia.
Qed.
Lemma order_unique w s S L P l : reached w -> ginv w S -> bounded w -> nth_error S s = Some (Some (L, P)) -> would_call w s l -> l = L.
Proof.
  intros H G BD ES WL. destruct (C150_one_order w s H) as (l0 & _ & _ & U & _); [apply (lives_rep w S s (proj1 G)); eauto|]. rewrite (U l WL). symmetry. apply U. exact (would_call_rep w S s L P G BD ES).
Qed.

(** A new slot is called last. *)
Theorem C150_connect w s l w' id : reached w -> would_call w s l -> sig_connect w s = Done (w', id) -> bounded w' -> would_call w' s (l ++ [id]).
Proof.
  intros H WL E HB. destruct (reached_keeps w H) as (((S & G) & V) & BD). assert (EX : exists x, sig_at w s = Done x) by (unfold sig_connect in E; apply bind_inv in E; destruct E as (x & E & _); eauto). destruct EX as (x & EX). destruct (sig_at_alive w S s x (proj1 G) EX) as ([L P] & ES).
  pose proof (order_unique w s S L P l H G BD ES WL) as ->. destruct (step_ginv w S (AConnect s) G BD) as (w1 & evs & S' & E1 & EF & G1 & T1); [cbn [valid]; eauto|]. cbn [simple_action] in E1. rewrite E in E1. cbn [bind] in E1. injection E1 as <-.
  inversion EF as [| |s0 L0 P0 E0|]; subst. rewrite ES in E0. injection E0 as <- <-. destruct (connect_rep w S s L P (proj1 G) BD ES) as (w2 & E2 & _). rewrite E in E2. injection E2 as <- ->.
  assert (Hs : s < length S) by (apply nth_error_Some; congruence). eapply would_call_rep; [exact G1 | exact HB|]. rewrite nth_error_upd, Nat.eqb_refl. replace (s <? length S) with true by lia. reflexivity.
Qed.

(** A slot that leaves is replaced by the last one; or, after an emission that was interrupted, by a slot c between the two, and c by the last one. *)
Theorem C150_disconnect w s l id w' : reached w -> would_call w s l -> lives w s -> In id l -> conn_disconnect w (Some id) = Done w' ->
  would_call w' s (fill id l) \/ exists A B c D z, l = A ++ id :: B ++ c :: D ++ [z] /\ would_call w' s (A ++ c :: B ++ z :: D).
Proof.
  intros H WL LV HI E. destruct (reached_keeps w H) as (((S & G) & V) & BD). destruct (proj1 (lives_rep w S s (proj1 G)) LV) as (L & P & ES). pose proof (order_unique w s S L P l H G BD ES WL) as ->.
  destruct (step_ginv w S (ADisconnect id) G BD I) as (w1 & evs & S' & E1 & EF & G1 & T1). cbn [simple_action] in E1. rewrite E in E1. injection E1 as <-. pose proof (proj1 (proj2 (proj1 G))) as HX.
  inversion EF as [i NI|s0 L0 P0 j i E0 EJ| |]; subst; [exfalso; exact (NI _ _ _ ES HI)|]. apply In_nth_error in HI. destruct HI as (k & HK). pose proof (HX _ _ _ _ _ ES HK) as A1. rewrite (HX _ _ _ _ _ E0 EJ) in A1. injection A1 as -> ->. rewrite ES in E0. injection E0 as <- <-.
  assert (Hs : s < length S) by (apply nth_error_Some; congruence). assert (HB1 : bounded w') by (unfold bounded in *; congruence). assert (EN : nth_error (upd S s (Some (a_remove L P k))) s = Some (Some (a_remove L P k))) by (rewrite nth_error_upd, Nat.eqb_refl; replace (s <? length S) with true by lia; reflexivity).
  assert (WC : would_call w' s (fst (a_remove L P k))) by (destruct (a_remove L P k) as [L' P']; exact (would_call_rep w' _ s L' P' G1 HB1 EN)).
  destruct (past_remove L P k id (slots_nodup _ _ _ _ _ HX ES) EJ) as [EQ|(A & B & c & D & z & EL & EQ)]; rewrite EQ in WC; [left; exact WC | right; exists A, B, c, D, z; split; [exact EL | exact WC]].
Qed.

(** *** Callbacks that leave the signals alone *)
Theorem C150_order w s : calm w -> lives w s -> would_call w s (queue (trace w) s).
Proof.
  intros H LV. destruct (calm_settled w H) as (S & G & HP & HQ). destruct (proj1 (lives_rep w S s (proj1 G)) LV) as (L & P & ES). rewrite <- (HQ _ _ _ ES). exact (would_call_rep w S s L P G (proj2 (reached_keeps w (calm_reached w H))) ES).
Qed.

Lemma tidy_before t evs : tidy (t ++ evs) -> tidy t.
Proof. intros H t1 id t2 s E. apply (H t1 id (t2 ++ evs) s). rewrite E, <- app_assoc. reflexivity. Qed.
Lemma connected_calls t l s : connected (t ++ map ECall l) s = connected t s.
Proof. rewrite connected_app. generalize (connected t). induction l as [|x l IH]; intros f; cbn [map fold_left]; [reflexivity|]. now rewrite IH. Qed.
Lemma tidy_queue w : calm w -> tidy (trace w) -> forall s, queue (trace w) s = connected (trace w) s.
Proof.
  intros H. induction H as [n|beh fuel a w w' H IH HS E HB]; intros HT s; [reflexivity|]. destruct (calm_settled w H) as (S & ST). pose proof (calm_reached w H) as RW. pose proof (proj2 (reached_keeps w RW)) as BD.
  destruct (act_valid beh fuel w S a w' (proj1 ST) E) as [(s0 & L & P & -> & ES)|(HV & EA)].
  - cbn [act] in E. pose proof (calm_emit_enough beh fuel w S s0 L P w' HS (proj1 ST) BD ES E) as HF. destruct (calm_emit beh fuel w S s0 L P HS (proj1 ST) BD ES HF) as (w1 & E1 & _ & _ & T). rewrite E in E1. injection E1 as <-. rewrite T in HT |- *. rewrite queue_calls, connected_calls. exact (IH (tidy_before _ _ HT) s).
  - destruct (settled_action w S a ST BD HV) as (w1 & S1 & evs & E1 & _ & T & HL). rewrite EA in E1. injection E1 as <-. rewrite T in HT |- *. pose proof (IH (tidy_before _ _ HT)) as IQ. destruct evs as [|e [|e2 evs]]; cbn [length] in HL; [rewrite app_nil_r; apply IQ | | lia].
    rewrite queue_app, connected_app. cbn [fold_left]. destruct e as [i|s' i|i|s'|d s']; cbn [step_queue step_connected]; rewrite ?IQ; try reflexivity.
    destruct (in_dec Nat.eq_dec i (connected (trace w) s)) as [HI|HI]; [|rewrite fill_out, without_out by exact HI; reflexivity]. apply fill_keeps_order; [exact (connected_nodup w s RW) | exact HI|]. exact (HT (trace w) i [] s eq_refl HI).
Qed.
(** Slots are called in the order in which they were connected, if only the two youngest slots of a signal are ever disconnected. *)
Theorem C150_in_order w s : calm w -> lives w s -> tidy (trace w) -> would_call w s (connected (trace w) s).
Proof. intros H LV HT. rewrite <- (tidy_queue w H HT s). now apply C150_order. Qed.

(** Disconnecting any other slot changes the order of those that remain. *)
Theorem C150_disconnect_exactly w s l id w' : calm w -> lives w s -> would_call w s l -> In id l -> conn_disconnect w (Some id) = Done w' ->
  exists l', would_call w' s l' /\ (l' = without id l <-> near_end id l).
Proof.
  intros H LV WL HI E. pose proof (calm_reached w H) as RW. pose proof (proj2 (reached_keeps w RW)) as BD. destruct (calm_settled w H) as (S & G & HP & HQ). destruct (proj1 (lives_rep w S s (proj1 G)) LV) as (L & P & ES). pose proof (order_unique w s S L P l RW G BD ES WL) as ->.
  assert (ND : NoDup L) by exact (slots_nodup _ _ _ _ _ (proj1 (proj2 (proj1 G))) ES). exists (fill id L). split; [|exact (fill_keeps_order id L ND HI)].
  pose proof (In_nth_error _ _ HI) as (k & HK).
  destruct (step_ginv w S (ADisconnect id) G BD I) as (w1 & evs & S' & E1 & EF & G1 & T1). cbn [simple_action] in E1. rewrite E in E1. injection E1 as <-.
  inversion EF as [i NI|s0 L0 P0 j i E0 EJ| |]; subst; [exfalso; exact (NI _ _ _ ES HI)|]. pose proof (proj1 (proj2 (proj1 G))) as HX. pose proof (HX _ _ _ _ _ ES HK) as A1. rewrite (HX _ _ _ _ _ E0 EJ) in A1. injection A1 as -> ->. rewrite ES in E0. injection E0 as <- <-.
  assert (ER : a_remove L P k = (fill id L, P)) by (pose proof (HP _ _ _ ES); unfold a_remove; replace (length L <=? P) with true by lia; cbn [orb]; now rewrite (swap_pop_fill _ _ _ ND HK)). rewrite ER in G1. assert (Hs : s < length S) by (apply nth_error_Some; congruence).
  eapply would_call_rep; [exact G1 | unfold bounded in *; congruence|]. rewrite nth_error_upd, Nat.eqb_refl. replace (s <? length S) with true by lia. reflexivity.
Qed.

Definition quiet : list event -> nat -> list action := fun _ _ => [].
Lemma connects n : (N.of_nat n + 4 < two64)%N -> exists w, history quiet 1 (start 1) (repeat (AConnect 0) n) = Done w /\ calm w /\ lives w 0 /\ length (heap w) = n /\ trace w = map (EConnect 0) (seq 0 n).
Proof.
  induction n as [|n IH]; intros HN.
  - exists (start 1). split; [reflexivity|]. split; [apply c_start|]. split; [exists new_signal; reflexivity|]. split; reflexivity.
  - destruct IH as (w & E & C & LV & HH & T); [lia|]. destruct (calm_settled w C) as (S & G & _). destruct (proj1 (lives_rep w S 0 (proj1 G)) LV) as (L & P & ES). pose proof (proj2 (reached_keeps w (calm_reached w C))) as BD. destruct (connect_rep w S 0 L P (proj1 G) BD ES) as (w1 & E1 & R1 & HH1 & T1).
    assert (EA : act quiet 1 w (AConnect 0) = Done w1) by (cbn [act simple_action]; rewrite E1; reflexivity). assert (HB1 : bounded w1) by (unfold bounded; rewrite HH1, HH; lia). exists w1. split; [|split; [exact (c_act quiet 1 (AConnect 0) w w1 C (fun _ _ => eq_refl) EA HB1)|]].
    + replace (Datatypes.S n) with (n + 1) by lia. rewrite repeat_app. unfold history in *. assert (PA : forall l1 l2 v, perform (emit quiet 1) (l1 ++ l2) v = (v1 <- perform (emit quiet 1) l1 v ;; perform (emit quiet 1) l2 v1)).
      { induction l1 as [|x l1 IL]; intros l2 v; [reflexivity|]. cbn [app perform]. destruct (match x with AEmit t => emit quiet 1 v t | _ => simple_action v x end); [cbn [bind]; apply IL | reflexivity]. }
      rewrite PA, E. cbn [bind repeat perform]. cbn [act] in EA. rewrite EA. reflexivity.
    + split; [apply (lives_rep w1 _ 0 R1); eexists; eexists; rewrite nth_error_upd, Nat.eqb_refl; replace (0 <? length S) with true by (symmetry; apply Nat.ltb_lt; apply nth_error_Some; congruence); reflexivity|].
      split; [lia|]. rewrite T1, T, HH, seq_S, map_app. reflexivity.
Qed.
Lemma queue_connects n : queue (map (EConnect 0) (seq 0 n)) 0 = seq 0 n /\ connected (map (EConnect 0) (seq 0 n)) 0 = seq 0 n.
Proof.
  induction n as [|n (I1 & I2)]; [split; reflexivity|]. rewrite seq_S, map_app. rewrite queue_app, connected_app. cbn [Nat.add map fold_left step_queue step_connected Nat.eqb]. rewrite I1, I2. split; reflexivity.
Qed.
(** With three slots or more, disconnecting the oldest one makes the youngest the first to be called. *)
Theorem C150_order_refuted n : 3 <= n -> (N.of_nat n + 4 < two64)%N ->
  exists w w', history quiet 1 (start 1) (repeat (AConnect 0) n) = Done w /\ would_call w 0 (seq 0 n) /\ conn_disconnect w (Some 0) = Done w' /\ calm w' /\
    connected (trace w') 0 = seq 1 (n - 1) /\ would_call w' 0 ((n - 1) :: seq 1 (n - 2)) /\ ~ would_call w' 0 (connected (trace w') 0).
Proof.
  intros HN HB. destruct (connects n HB) as (w & E & C & LV & HH & T). destruct (queue_connects n) as (Q & K). pose proof (C150_order w 0 C LV) as WC. rewrite T, Q in WC. destruct (C47_actions_succeed quiet 1 w (ADisconnect 0) (calm_reached w C) I) as (w' & E').
  assert (C' : calm w'). { apply (c_act quiet 1 (ADisconnect 0) w w' C (fun _ _ => eq_refl) E'). destruct (calm_settled w C) as (S & G & _). destruct (step_ginv w S (ADisconnect 0) G (proj2 (reached_keeps w (calm_reached w C))) I) as (w1 & evs & S' & E1 & EF & _). cbn [act] in E'. rewrite E' in E1. injection E1 as <-. unfold bounded. assert (length (heap w') = length (heap w)) by (inversion EF; congruence). lia. }
  assert (LV' : lives w' 0). { destruct (act_vacant quiet 1 w (ADisconnect 0) w' (proj2 (proj1 (reached_keeps w (calm_reached w C)))) E') as (_ & SL). apply SL. exact LV. }
  assert (T' : trace w' = trace w ++ [EDisconnect 0]). { destruct (calm_settled w C) as (S & G & _ & HQ). destruct (step_ginv w S (ADisconnect 0) G (proj2 (reached_keeps w (calm_reached w C))) I) as (w1 & evs & S' & E1 & EF & _ & T1). cbn [act] in E'. rewrite E' in E1. injection E1 as <-. destruct (proj1 (lives_rep w S 0 (proj1 G)) LV) as (L & P & ES). assert (HI : In 0 L) by (rewrite (HQ _ _ _ ES), T, Q; apply in_seq; lia). inversion EF as [i NI EI|s0 L0 P0 j i E0 EJ| |]; [|congruence]. exfalso. apply (NI 0 L P); congruence. }
  exists w, w'. split; [exact E|]. split; [exact WC|]. split; [exact E'|]. split; [exact C'|].
  assert (SQ : seq 0 n = 0 :: seq 1 (n - 2) ++ [n - 1]). { destruct n as [|[|m]]; [lia | lia|]. replace (Datatypes.S (Datatypes.S m) - 2) with m by lia. cbn [seq]. f_equal. rewrite <- seq_S. reflexivity. }
  assert (KC : connected (trace w') 0 = seq 1 (n - 1)). { rewrite T', T, connected_app. cbn [fold_left step_connected]. rewrite K. destruct n as [|m]; [lia|]. replace (Datatypes.S m - 1) with m by lia. cbn [seq]. change (0 :: seq 1 m) with ([] ++ 0 :: seq 1 m). rewrite without_mid; [reflexivity|]. cbn [app]. rewrite in_seq. lia. }
  assert (W' : would_call w' 0 ((n - 1) :: seq 1 (n - 2))). { pose proof (C150_order w' 0 C' LV') as W'. rewrite T', T, queue_app in W'. cbn [fold_left step_queue] in W'. rewrite Q in W'. replace (fill 0 (seq 0 n)) with ((n - 1) :: seq 1 (n - 2)) in W'; [exact W'|]. symmetry. pose proof (seq_NoDup n 0) as ND. rewrite SQ in ND |- *. exact (fill_mid [] 0 (seq 1 (n - 2)) (n - 1) ND). }
  split; [exact KC|]. split; [exact W'|]. rewrite KC. intros W2. destruct (C150_one_order w' 0 (calm_reached w' C') LV') as (l & _ & _ & U & _). pose proof (U _ W2) as E1. rewrite <- (U _ W') in E1. destruct n as [|[|[|m]]]; try lia. cbn [Nat.sub seq] in E1. injection E1 as E1 _. lia.
Qed.

(** *** Examples *)
Definition after (acts : list action) : option (list nat) := match history quiet 20 (start 1) acts with Done w => match emit quiet 20 w 0 with Done w' => Some (calls (skipn (length (trace w)) (trace w'))) | _ => None end | _ => None end.
Example C150_example_orders :
  after [AConnect 0; AConnect 0; AConnect 0] = Some [0; 1; 2] /\
  after [AConnect 0; AConnect 0; AConnect 0; ADisconnect 2; AEmit 0; AConnect 0] = Some [0; 1; 3] /\
  after [AConnect 0; AConnect 0; AConnect 0; ADisconnect 1; AConnect 0] = Some [0; 2; 3] /\
  after [AConnect 0; AConnect 0; AConnect 0; ADisconnect 0; AConnect 0] = Some [2; 1; 3] /\
  after [AConnect 0; AConnect 0; AConnect 0; AConnect 0; AConnect 0; ADisconnect 0; ADisconnect 1] = Some [4; 3; 2].
Proof. crunch. Qed.
(** The same connections and disconnections, with an emission that slot 1 ends by throwing in between: another order. *)
Definition thrower : list event -> nat -> list taction := fun _ id => if id =? 1 then [TThrow] else [].
Definition five : list action := repeat (AConnect 0) 5.
Definition order_now (w : world) : option (list nat) := match emit quiet 20 w 0 with Done w' => Some (calls (skipn (length (trace w)) (trace w'))) | _ => None end.
Example C150_example_interrupted :
  after (five ++ [ADisconnect 0]) = Some [4; 1; 2; 3] /\
  match (w <- history quiet 20 (start 1) five ;; ' (w, thrown) <- tact thrower 20 w (AEmit 0) ;; w <- conn_disconnect w (Some 0) ;; Done (thrown, order_now w)) with Done r => Some r | _ => None end = Some (true, Some [1; 4; 2; 3]).
Proof. crunch. Qed.
(** A slot that disconnects itself while it runs: the last slot is called right after it. *)
Definition once : list event -> nat -> list action := fun _ id => if id =? 0 then [ADisconnect 0] else [].
Example C150_example_self_disconnect :
  match (w <- history quiet 20 (start 1) five ;; w' <- emit once 20 w 0 ;; Done (calls (skipn (length (trace w)) (trace w')), order_now w')) with Done r => Some r | _ => None end = Some ([0; 4; 1; 2; 3], Some [4; 1; 2; 3]).
Proof. crunch. Qed.
Print Assumptions C150_one_order.
Print Assumptions C150_connect.
Print Assumptions C150_disconnect.
Print Assumptions C150_order.
Print Assumptions C150_in_order.
Print Assumptions C150_disconnect_exactly.
Print Assumptions C150_order_refuted.
