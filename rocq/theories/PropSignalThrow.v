(** Property C86: callbacks of a signal that throw. (C47-C52 hold in all worlds [reached] with exceptions.) *)
From Coq Require Import Permutation.
From Verif Require Import SignalSpec SignalModel SignalProofs SignalEmit SignalHistory SignalThrowModel SignalThrow PropSignal.
Open Scope nat_scope.

(** The slots that are called: up to the first that throws, included. *)
Fixpoint upto (bad : nat -> bool) (l : list nat) : list nat := match l with [] => [] | x :: r => x :: (if bad x then [] else upto bad r) end.
Definition throwing (bad : nat -> bool) : list event -> nat -> list taction := fun _ id => if bad id then [TThrow] else [].

Lemma throwing_loop bad s m : forall fuel w S L P, ginv w S -> bounded w -> nth_error S s = Some (Some (L, P)) -> 1 <= P -> P - 1 + m = length L -> m < fuel ->
  exists w' S' P', temit_loop (throwing bad) fuel w s = Done (w', existsb bad (skipn (P - 1) L)) /\ ginv w' S' /\ nth_error S' s = Some (Some (L, P')) /\ heap w' = heap w /\ trace w' = trace w ++ map ECall (upto bad (skipn (P - 1) L)).
Proof.
  induction m as [|m IH]; intros fuel w S L P G HB ES HP HL HF; (destruct fuel as [|fuel]; [lia|]); cbn [temit_loop];
    destruct (loop_head s w S L P (proj1 G) ES HP) as (x & EX & EC & EA); rewrite EX; cbn [bind]; rewrite EC.
  - replace (P <=? length L) with false by lia. rewrite skipn_all2 by lia. exists w, S, P. rewrite app_nil_r. auto.
  - replace (P <=? length L) with true by lia. rewrite (EA ltac:(lia)). cbn [bind]. set (id := nth (P - 1) L 0).
    assert (NI : nth_error L (P - 1) = Some id) by (apply nth_at; lia). rewrite (skipn_step L _ _ NI). cbn [existsb upto]. replace (throwing bad (trace (log w (ECall id))) id) with (if bad id then [TThrow] else []) by reflexivity. destruct (bad id); cbn [tperform bind orb].
    + exists (log w (ECall id)), S, P. split; [reflexivity|]. split; [now apply log_call|]. auto.
    + destruct (advance quiet s (log w (ECall id)) S L P (log_call w S id G) HB ES ltac:(lia)) as (w1 & E1 & G1 & HH1 & T1). rewrite E1. cbn [bind]. assert (Hs : s < length S) by (apply nth_error_Some; congruence).
      destruct (IH fuel w1 (upd S s (Some (L, P + 1))) L (P + 1) G1 ltac:(unfold bounded; rewrite HH1; exact HB)) as (w2 & S2 & P2 & E2 & G2 & ES2 & HH2 & T2); try lia.
      * rewrite nth_error_upd, Nat.eqb_refl. now rewrite (proj2 (Nat.ltb_lt _ _) Hs).
      * replace (P + 1 - 1) with (Datatypes.S (P - 1)) in * by lia. exists w2, S2, P2. split; [exact E2|]. split; [exact G2|]. split; [exact ES2|]. split; [now rewrite HH2, HH1|]. rewrite T2, T1. cbn [log trace]. now rewrite <- app_assoc.
Qed.
Lemma connected_calls l : forall t s, connected (t ++ map ECall l) s = connected t s.
Proof. intros t s. rewrite connected_app. induction l as [|x l IH]; [reflexivity | exact IH]. Qed.

(** An emission in which some callbacks throw: the exception reaches the caller iff there is one; the slots up to it were called once each, no slot after
    it; the connections are what they were; and the next emission calls all the slots again, in the same order. *)
Theorem C86_throwing_callbacks bad fuel w s : reached w -> lives w s -> length (connected (trace w) s) < fuel ->
  exists w' w'' t, temit (throwing bad) fuel w s = Done (w', existsb bad t) /\ trace w' = trace w ++ map ECall (upto bad t) /\ Permutation t (connected (trace w) s) /\ NoDup t /\
    reached w' /\ (forall u, connected (trace w') u = connected (trace w) u) /\ emit quiet fuel w' s = Done w'' /\ trace w'' = trace w' ++ map ECall t.
Proof.
  intros H LV HF. destruct (reached_keeps w H) as (((S & G) & V) & BD). destruct (proj1 (lives_rep w S s (proj1 G)) LV) as (L & P & ES). pose proof (proj2 G _ _ _ ES) as PM. destruct (restart w S s L P G ES) as (w1 & E1 & G1 & HH & T1).
  assert (Hs : s < length S) by (apply nth_error_Some; congruence). pose proof (Permutation_length PM) as HL.
  destruct (throwing_loop bad s (length L) fuel w1 (upd S s (Some (L, 1))) L 1 G1 ltac:(unfold bounded; now rewrite HH)) as (w2 & S2 & P2 & E2 & G2 & ES2 & HH2 & T2); try lia.
  { rewrite nth_error_upd, Nat.eqb_refl. now rewrite (proj2 (Nat.ltb_lt _ _) Hs). }
  cbn [Nat.sub skipn] in E2, T2. assert (BD2 : bounded w2) by (unfold bounded; now rewrite HH2, HH).
  assert (ET : temit (throwing bad) fuel w s = Done (w2, existsb bad L)) by (unfold temit; rewrite E1; exact E2).
  destruct (restart w2 S2 s L P2 G2 ES2) as (w3 & E3 & G3 & HH3 & T3). assert (Hs2 : s < length S2) by (apply nth_error_Some; congruence).
  destruct (quiet_loop quiet s fuel w3 (upd S2 s (Some (L, 1))) L 1 G3 ltac:(unfold bounded; now rewrite HH3)) as (w4 & S4 & E4 & _ & _ & _ & _ & T4); try lia.
  { rewrite nth_error_upd, Nat.eqb_refl. now rewrite (proj2 (Nat.ltb_lt _ _) Hs2). }
  { reflexivity. }
  exists w2, w4, L. split; [exact ET|]. split; [now rewrite T2, T1|]. split; [exact PM|]. split; [exact (slots_nodup _ _ _ _ _ (proj1 (proj2 (proj1 G))) ES)|].
  split; [exact (r_throw (throwing bad) fuel (AEmit s) w w2 _ H ET BD2)|]. split; [intros u; rewrite T2, T1; apply connected_calls|]. unfold emit. rewrite E3. split; [exact E4|]. rewrite T4, T3. reflexivity.
Qed.
Print Assumptions C86_throwing_callbacks.

(** Whatever the callbacks did before throwing — connect, disconnect, clear, emit, swallow exceptions of other emissions —, whatever the emission they
    threw out of: the signals are as good as before. *)
Theorem C86_emission_after_exceptions beh fuel fuel' w a w' thrown s : reached w -> tact beh fuel w a = Done (w', thrown) -> bounded w' -> lives w s -> length (connected (trace w') s) < fuel' ->
  exists w'' t, emit quiet fuel' w' s = Done w'' /\ trace w'' = trace w' ++ map ECall t /\ Permutation t (connected (trace w') s) /\ NoDup t.
Proof.
  intros H E BD LV HF. apply (C47_emission_calls_each_slot_once quiet fuel' w' s); [exact (r_throw _ _ _ _ _ _ H E BD) | | intros tr id; reflexivity | exact HF].
  destruct (reached_keeps w H) as ((_ & V) & _). exact (proj1 (proj2 (proj1 (proj2 (tact_fine _ _ _ _ _ _ E)) V) s) LV) || (apply (proj2 (proj1 (proj2 (tact_fine _ _ _ _ _ _ E)) V)); exact LV).
Qed.
Print Assumptions C86_emission_after_exceptions.

(** An exception goes through the emissions it is thrown out of: slot [relay] of [s] emits [t], where some callback throws. The slots of [s] up to [relay] and
    those of [t] up to the first that throws were called, nothing after that, and the exception reaches the caller. *)
Lemma throwing_loop_gen (beh : list event -> nat -> list taction) (bad : nat -> bool) s m : forall fuel w S L P, ginv w S -> bounded w -> nth_error S s = Some (Some (L, P)) -> 1 <= P -> P - 1 + m = length L -> m < fuel ->
  (forall tr id, In id (skipn (P - 1) L) -> beh tr id = if bad id then [TThrow] else []) ->
  exists w' S' P', temit_loop beh fuel w s = Done (w', existsb bad (skipn (P - 1) L)) /\ ginv w' S' /\ nth_error S' s = Some (Some (L, P')) /\ heap w' = heap w /\ trace w' = trace w ++ map ECall (upto bad (skipn (P - 1) L)).
Proof.
  induction m as [|m IH]; intros fuel w S L P G HB ES HP HL HF HQ; (destruct fuel as [|fuel]; [lia|]); cbn [temit_loop];
    destruct (loop_head s w S L P (proj1 G) ES HP) as (x & EX & EC & EA); rewrite EX; cbn [bind]; rewrite EC.
  - replace (P <=? length L) with false by lia. rewrite skipn_all2 by lia. exists w, S, P. rewrite app_nil_r. auto.
  - replace (P <=? length L) with true by lia. rewrite (EA ltac:(lia)). cbn [bind]. set (id := nth (P - 1) L 0).
    assert (NI : nth_error L (P - 1) = Some id) by (apply nth_at; lia). rewrite (skipn_step L _ _ NI) in HQ |- *. cbn [existsb upto]. rewrite (HQ _ id (or_introl eq_refl)). destruct (bad id); cbn [tperform bind orb].
    + exists (log w (ECall id)), S, P. split; [reflexivity|]. split; [now apply log_call|]. auto.
    + destruct (advance quiet s (log w (ECall id)) S L P (log_call w S id G) HB ES ltac:(lia)) as (w1 & E1 & G1 & HH1 & T1). rewrite E1. cbn [bind]. assert (Hs : s < length S) by (apply nth_error_Some; congruence).
      destruct (IH fuel w1 (upd S s (Some (L, P + 1))) L (P + 1) G1 ltac:(unfold bounded; rewrite HH1; exact HB)) as (w2 & S2 & P2 & E2 & G2 & ES2 & HH2 & T2); try lia.
      * rewrite nth_error_upd, Nat.eqb_refl. now rewrite (proj2 (Nat.ltb_lt _ _) Hs).
      * intros tr y I. apply HQ. right. now replace (P + 1 - 1) with (Datatypes.S (P - 1)) in I by lia.
      * replace (P + 1 - 1) with (Datatypes.S (P - 1)) in * by lia. exists w2, S2, P2. split; [exact E2|]. split; [exact G2|]. split; [exact ES2|]. split; [now rewrite HH2, HH1|]. rewrite T2, T1. cbn [log trace]. now rewrite <- app_assoc.
Qed.
Lemma relay_loop (beh : list event -> nat -> list taction) (bad : nat -> bool) s t Lt relay rest : s <> t -> (forall tr, beh tr relay = TDo (AEmit t) :: rest) -> (forall tr id, In id Lt -> beh tr id = if bad id then [TThrow] else []) ->
  existsb bad Lt = true ->
  forall pre fuel w S L P Pt post, ginv w S -> bounded w -> nth_error S s = Some (Some (L, P)) -> nth_error S t = Some (Some (Lt, Pt)) -> 1 <= P -> skipn (P - 1) L = pre ++ relay :: post ->
  (forall tr id, In id pre -> beh tr id = []) -> length pre + length Lt + 1 < fuel ->
  exists w', temit_loop beh fuel w s = Done (w', true) /\ trace w' = trace w ++ map ECall (pre ++ [relay]) ++ map ECall (upto bad Lt).
Proof.
  intros NE HR HT HB. induction pre as [|a pre IH]; intros fuel w S L P Pt post G BD ES ET HP HL HQ HF; (destruct fuel as [|fuel]; [lia|]); cbn [temit_loop];
    destruct (loop_head s w S L P (proj1 G) ES HP) as (x & EX & EC & EA); rewrite EX; cbn [bind]; rewrite EC;
    pose proof (f_equal (@length nat) HL) as LL; rewrite skipn_length, app_length in LL; cbn [length] in LL;
    replace (P <=? length L) with true by lia; rewrite (EA ltac:(lia)); cbn [bind];
    assert (NI : nth_error L (P - 1) = Some (nth (P - 1) L 0)) by (apply nth_at; lia); rewrite (skipn_step L _ _ NI) in HL; injection HL as Hid HL'; rewrite Hid.
  - rewrite HR. cbn [tperform]. destruct (restart (log w (ECall relay)) S t Lt Pt (log_call w S relay G) ET) as (w1 & E1 & G1 & HH & T1). rewrite E1. cbn [bind].
    assert (Ht : t < length S) by (apply nth_error_Some; congruence).
    destruct (throwing_loop_gen beh bad t (length Lt) fuel w1 (upd S t (Some (Lt, 1))) Lt 1 G1 ltac:(unfold bounded; rewrite HH; exact BD)) as (w2 & S2 & P2 & E2 & _ & _ & _ & T2); try lia.
    { rewrite nth_error_upd, Nat.eqb_refl. now rewrite (proj2 (Nat.ltb_lt _ _) Ht). }
    { exact HT. }
    cbn [Nat.sub skipn] in E2, T2. rewrite HB in E2. rewrite E2. cbn [bind]. exists w2. split; [reflexivity|]. rewrite T2, T1. cbn [log trace app map]. now rewrite <- app_assoc.
  - rewrite (HQ _ a (or_introl eq_refl)). cbn [tperform bind].
    destruct (advance quiet s (log w (ECall a)) S L P (log_call w S a G) BD ES ltac:(lia)) as (w1 & E1 & G1 & HH1 & T1). rewrite E1. cbn [bind]. assert (Hs : s < length S) by (apply nth_error_Some; congruence).
    destruct (IH fuel w1 (upd S s (Some (L, P + 1))) L (P + 1) Pt post G1) as (w2 & E2 & T2); try lia.
    + unfold bounded. rewrite HH1. exact BD.
    + rewrite nth_error_upd, Nat.eqb_refl. now rewrite (proj2 (Nat.ltb_lt _ _) Hs).
    + rewrite nth_error_upd. destruct (Nat.eqb_spec t s); [congruence|]. exact ET.
    + replace (P + 1 - 1) with (Datatypes.S (P - 1)) by lia. exact HL'.
    + intros tr y I. apply HQ. now right.
    + cbn [length] in HF. lia.
    + exists w2. split; [exact E2|]. rewrite T2, T1. cbn [log trace app map]. now rewrite <- app_assoc.
Qed.
Theorem C86_nested_exception (beh : list event -> nat -> list taction) (bad : nat -> bool) fuel w s t relay rest : reached w -> lives w s -> lives w t -> s <> t -> In relay (connected (trace w) s) ->
  (forall tr, beh tr relay = TDo (AEmit t) :: rest) -> (forall tr id, In id (connected (trace w) s) -> id <> relay -> beh tr id = []) ->
  (forall tr id, In id (connected (trace w) t) -> beh tr id = if bad id then [TThrow] else []) -> existsb bad (connected (trace w) t) = true ->
  length (connected (trace w) s) + length (connected (trace w) t) + 1 < fuel ->
  exists w' before after u, temit beh fuel w s = Done (w', true) /\ Permutation (before ++ relay :: after) (connected (trace w) s) /\ Permutation u (connected (trace w) t) /\
    trace w' = trace w ++ map ECall (before ++ [relay]) ++ map ECall (upto bad u).
Proof.
  intros H LS LT NE IR HR HQ HT HB HF. destruct (reached_keeps w H) as (((S & G) & V) & BD). destruct (proj1 (lives_rep w S s (proj1 G)) LS) as (L & P & ES). destruct (proj1 (lives_rep w S t (proj1 G)) LT) as (Lt & Pt & ET).
  pose proof (proj2 G _ _ _ ES) as PM. pose proof (proj2 G _ _ _ ET) as PMt. destruct (restart w S s L P G ES) as (w1 & E1 & G1 & HH & T1).
  assert (Hs : s < length S) by (apply nth_error_Some; congruence). pose proof (Permutation_length PM) as HL. pose proof (Permutation_length PMt) as HLt.
  pose proof (slots_nodup _ _ _ _ _ (proj1 (proj2 (proj1 G))) ES) as ND.
  destruct (in_split relay L (Permutation_in _ (Permutation_sym PM) IR)) as (pre & post & EL).
  destruct (relay_loop beh bad s t Lt relay rest NE HR) with (pre := pre) (fuel := fuel) (w := w1) (S := upd S s (Some (L, 1))) (L := L) (P := 1) (Pt := Pt) (post := post) as (w2 & E2 & T2); try lia.
  - intros tr id I. apply HT. exact (Permutation_in _ PMt I).
  - rewrite existsb_exists in HB |- *. destruct HB as (y & I & B). exists y. split; [exact (Permutation_in _ (Permutation_sym PMt) I)|exact B].
  - exact G1.
  - unfold bounded. rewrite HH. exact BD.
  - rewrite nth_error_upd, Nat.eqb_refl. now rewrite (proj2 (Nat.ltb_lt _ _) Hs).
  - rewrite nth_error_upd. destruct (Nat.eqb_spec t s); [congruence|]. exact ET.
  - exact EL.
  - intros tr id I. apply HQ; [apply (Permutation_in _ PM); rewrite EL; apply in_or_app; now left|]. intros ->. rewrite EL in ND. apply NoDup_remove_2 in ND. apply ND. apply in_or_app. now left.
  - rewrite EL, app_length in HL. cbn [length] in HL. lia.
  - exists w2, pre, post, Lt. split; [unfold temit; rewrite E1; exact E2|]. split; [rewrite <- EL; exact PM|]. split; [exact PMt|]. rewrite T2, T1. reflexivity.
Qed.
Print Assumptions C86_nested_exception.

(** Callbacks that do not throw: the emission of C47-C52. *)
Lemma tperform_plain emit emit' acts : (forall w t, emit' w t = (w' <- emit w t ;; Done (w', false))) -> forall w, tperform emit' (map TDo acts) w = (w' <- perform emit acts w ;; Done (w', false)).
Proof.
  intros HE. induction acts as [|a r IH]; intros w; [reflexivity|]. cbn [map tperform perform]. destruct a; rewrite ?HE.
  all: match goal with |- context [bind (bind ?c _) _] => destruct c as [w1|]; cbn [bind]; [apply IH | reflexivity] end.
Qed.
Theorem C86_no_exceptions beh fuel w a : tact (fun tr id => map TDo (beh tr id)) fuel w a = (w' <- act beh fuel w a ;; Done (w', false)).
Proof.
  destruct a; try reflexivity. cbn [tact act]. unfold temit, emit. destruct (set_iterator w s (fun _ => 0%N)) as [w1|]; [|reflexivity]. cbn [bind]. clear w. revert w1 s.
  induction fuel as [|fuel IH]; intros w s; [reflexivity|]. cbn [temit_loop emit_loop]. destruct (sig_at w s) as [x|]; [|reflexivity]. cbn [bind]. destruct (_ <? _)%N; [|reflexivity]. destruct (fv_at _ _ _) as [[id|]|]; try reflexivity. cbn [bind].
  rewrite (tperform_plain (fun w t => w <- set_iterator w t (fun _ => 0%N) ;; emit_loop beh fuel w t)).
  - destruct (perform _ _ _) as [w1|]; [|reflexivity]. cbn [bind]. destruct (set_iterator w1 s inc) as [w2|]; [|reflexivity]. cbn [bind]. apply IH.
  - intros w1 t. destruct (set_iterator w1 t (fun _ => 0%N)) as [w2|]; [|reflexivity]. cbn [bind]. apply IH.
Qed.
Print Assumptions C86_no_exceptions.

(** Swallowing the exception of an emission of the same signal: the outer emission goes on from where the inner one stopped. Slot 0 emits again and
    swallows; slot 1 throws in the inner emission; the outer one goes on with slot 2, and never calls slot 1. *)
Definition swallowing : list event -> nat -> list taction := fun tr id => match id with 0 => if (length tr <=? 4) then [TTry 0] else [] | 1 => [TThrow] | _ => [] end.
Theorem C86_swallowed_exception_refuted : exists w w', reached w /\ connected (trace w) 0 = [0; 1; 2] /\ temit swallowing 9 w 0 = Done (w', false) /\ trace w' = trace w ++ map ECall [0; 0; 1; 2].
Proof.
  destruct (history quiet 0 (start 1) [AConnect 0; AConnect 0; AConnect 0]) as [w|] eqn:E; [|vm_compute in E; discriminate]. exists w.
  assert (R : reached w) by (apply (reached_history _ _ _ _ _ (r_start 1) E); vm_compute in E; injection E as <-; reflexivity). vm_compute in E. injection E as <-.
  eexists. split; [exact R|]. split; [reflexivity|]. split; [vm_compute; reflexivity | reflexivity].
Qed.
Print Assumptions C86_swallowed_exception_refuted.

(** Slot 1 disconnects slot 0 and throws: slots 0 and 1 were called; the next emission calls 1, 2 and 3. *)
Definition disconnecting : list event -> nat -> list taction := fun _ id => if id =? 1 then [TDo (ADisconnect 0); TThrow] else [].
Example C86_example : exists w w1 w2, history quiet 9 (start 1) [AConnect 0; AConnect 0; AConnect 0; AConnect 0] = Done w /\ temit disconnecting 9 w 0 = Done (w1, true) /\
  skipn (length (trace w)) (trace w1) = [ECall 0; ECall 1; EDisconnect 0] /\ emit quiet 9 w1 0 = Done w2 /\ skipn (length (trace w1)) (trace w2) = map ECall [1; 3; 2].
Proof. eexists _, _, _. split; [vm_compute; reflexivity|]. split; [vm_compute; reflexivity|]. split; [reflexivity|]. split; [vm_compute; reflexivity | reflexivity]. Qed.
(** Slot 0 of signal 0 emits signal 1 (slots 2 and 3) and would go on; slot 3 throws. *)
Definition relaying : list event -> nat -> list taction := fun _ id => match id with 0 => [TDo (AEmit 1); TDo (AConnect 0)] | 3 => [TThrow] | _ => [] end.
Example C86_nested_example : exists w w1, history quiet 9 (start 2) [AConnect 0; AConnect 0; AConnect 1; AConnect 1] = Done w /\ temit relaying 9 w 0 = Done (w1, true) /\
  skipn (length (trace w)) (trace w1) = map ECall [0; 2; 3].
Proof. eexists _, _. split; [vm_compute; reflexivity|]. split; [vm_compute; reflexivity | reflexivity]. Qed.
