(** Proofs about the order of the slots of a signal. *)
From Coq Require Import Permutation.
From Verif Require Import CellModel CellProofs VectorModel VectorProofs VectorHistory VectorCopy PoolProofs SignalSpec SignalModel SignalProofs SignalEmit SignalHistory SignalOrderSpec.
Open Scope nat_scope.

(** *** Lists *)
Lemma last_snoc (A : list nat) z d : last (A ++ [z]) d = z.
Proof. apply last_last. Qed.
Lemma map_other (f : nat -> nat) l : (forall x, In x l -> f x = x) -> map f l = l.
Proof. intros H. rewrite <- (map_id l) at 2. now apply map_ext_in. Qed.
Lemma fill_out id l : ~ In id l -> fill id l = l.
Proof. intros H. unfold fill. destruct (existsb (Nat.eqb id) l) eqn:E; [|reflexivity]. apply existsb_exists in E. destruct E as (x & HI & EX). apply Nat.eqb_eq in EX. subst. contradiction. Qed.
Lemma fill_in id l : In id l -> fill id l = removelast (map (fun x => if x =? id then last l 0 else x) l).
Proof. intros H. unfold fill. replace (existsb (Nat.eqb id) l) with true; [reflexivity|]. symmetry. apply existsb_exists. exists id. split; [exact H | apply Nat.eqb_refl]. Qed.
Lemma keep_others id v l : ~ In id l -> map (fun x => if x =? id then v else x) l = l.
Proof. intros H. apply map_other. intros x HX. destruct (Nat.eqb_spec x id) as [->|]; [contradiction | reflexivity]. Qed.
Lemma fill_last A id : ~ In id A -> fill id (A ++ [id]) = A.
Proof. intros H. rewrite fill_in by (apply in_or_app; right; now left). rewrite map_app, keep_others by exact H. cbn [map]. rewrite Nat.eqb_refl. apply removelast_last. Qed.
Lemma fill_mid A id B z : NoDup (A ++ id :: B ++ [z]) -> fill id (A ++ id :: B ++ [z]) = A ++ z :: B.
Proof.
  intros ND. pose proof (NoDup_remove_2 _ _ _ ND) as NI. rewrite fill_in by (apply in_or_app; right; now left). replace (last (A ++ id :: B ++ [z]) 0) with z by (replace (A ++ id :: B ++ [z]) with ((A ++ id :: B) ++ [z]) by (now rewrite <- app_assoc); now rewrite last_snoc).
  rewrite map_app. cbn [map]. rewrite Nat.eqb_refl, !keep_others by (intros K; apply NI; apply in_or_app; auto). replace (A ++ z :: B ++ [z]) with ((A ++ z :: B) ++ [z]) by (now rewrite <- app_assoc). apply removelast_last.
Qed.
Lemma swap_pop_fill L j id : NoDup L -> nth_error L j = Some id -> swap_pop L j = fill id L.
Proof.
  intros ND H. destruct (split_at_nth L j id H) as (A & B & -> & <-). destruct (snoc_cases B) as [->|(B' & z & ->)].
  - rewrite swap_pop_last, fill_last; [reflexivity|]. intros K. apply (NoDup_remove_2 _ _ _ ND). now rewrite app_nil_r.
  - now rewrite swap_pop_mid, fill_mid.
Qed.
Lemma without_mid A id B : ~ In id (A ++ B) -> without id (A ++ id :: B) = A ++ B.
Proof.
  intros H. unfold without. rewrite filter_app. cbn [filter]. rewrite Nat.eqb_refl. cbn [negb]. rewrite <- filter_app. fold (without id (A ++ B)). now apply without_out.
Qed.
(** Filling the gap keeps the order exactly when the gap is near the end. *)
Lemma fill_keeps_order id l : NoDup l -> In id l -> (fill id l = without id l <-> near_end id l).
Proof.
  intros ND HI. destruct (in_split _ _ HI) as (A & B & ->). pose proof (NoDup_remove_2 _ _ _ ND) as NI. rewrite without_mid by exact NI. destruct (snoc_cases B) as [->|(B' & z & ->)].
  - rewrite app_nil_r in NI |- *. rewrite fill_last by exact NI. split; [|reflexivity]. intros _. exists A. now left.
  - rewrite fill_mid by exact ND. split.
    + intros E. apply app_inv_head in E. destruct B' as [|b B']; [exists A; right; now exists z|]. exfalso. cbn [app] in E. injection E as E1 E2. subst b. apply NoDup_remove_1 in ND. cbn [app] in ND. apply NoDup_remove_2 in ND. apply ND. apply in_or_app. right. apply in_or_app. right. now left.
    + intros (A' & [E|(y & E)]).
      * exfalso. replace (A ++ id :: B' ++ [z]) with ((A ++ id :: B') ++ [z]) in E by (now rewrite <- app_assoc). apply app_inj_tail in E. destruct E as (_ & E). subst z. apply NI. apply in_or_app. right. apply in_or_app. right. now left.
      * replace (A ++ id :: B' ++ [z]) with ((A ++ id :: B') ++ [z]) in E by (now rewrite <- app_assoc). replace (A' ++ [id; y]) with ((A' ++ [id]) ++ [y]) in E by (now rewrite <- app_assoc). apply app_inj_tail in E. destruct E as (E & ->).
        destruct (snoc_cases B') as [->|(B2 & b & ->)]; [reflexivity|]. exfalso. replace (A ++ id :: B2 ++ [b]) with ((A ++ id :: B2) ++ [b]) in E by (now rewrite <- app_assoc). apply app_inj_tail in E. destruct E as (_ & E). subst b. apply NI. apply in_or_app. right. apply in_or_app. left. apply in_or_app. right. now left.
Qed.

Lemma queue_app t evs s : queue (t ++ evs) s = fold_left step_queue evs (queue t) s.
Proof. unfold queue. now rewrite fold_left_app. Qed.
Lemma queue_calls t l s : queue (t ++ map ECall l) s = queue t s.
Proof. rewrite queue_app. generalize (queue t). induction l as [|x l IH]; intros f; cbn [map fold_left]; [reflexivity|]. now rewrite IH. Qed.

(** *** Emissions during which nothing happens *)
Lemma set_ginv w S s L P f P' : ginv w S -> nth_error S s = Some (Some (L, P)) -> f (it_of P) = it_of P' ->
  exists w1, set_iterator w s f = Done w1 /\ ginv w1 (upd S s (Some (L, P'))) /\ heap w1 = heap w /\ trace w1 = trace w.
Proof.
  intros (R & GC) ES EF. destruct (set_iterator_rep w S s L P f P' R ES EF) as (w1 & E1 & R1 & HH & T1). exists w1. split; [exact E1|]. split; [|auto]. split; [exact R1|]. intros i Li Pi Ei. rewrite T1. rewrite nth_error_upd in Ei.
  destruct (Nat.eqb_spec i s) as [->|D]; [|exact (GC _ _ _ Ei)]. assert (Hs : s < length S) by (apply nth_error_Some; congruence). replace (s <? length S) with true in Ei by lia. cbn [andb] in Ei. injection Ei as <- <-. exact (GC _ _ _ ES).
Qed.
Lemma skipn_nth (L : list nat) k : k < length L -> skipn k L = nth k L 0 :: skipn (k + 1) L.
Proof. revert k. induction L as [|x L IH]; intros [|k] H; cbn [length] in H; [lia | lia | reflexivity|]. cbn [skipn nth Nat.add]. apply IH. lia. Qed.
Lemma calm_loop beh s fuel : (forall tr id, beh tr id = []) -> forall w S L P, ginv w S -> bounded w -> nth_error S s = Some (Some (L, P)) -> 1 <= P <= length L + 1 -> length L < P + fuel - 1 ->
  exists w1, emit_loop beh fuel w s = Done w1 /\ ginv w1 (upd S s (Some (L, length L + 1))) /\ heap w1 = heap w /\ trace w1 = trace w ++ map ECall (skipn (P - 1) L).
Proof.
  intros HQ. induction fuel as [|fuel IH]; intros w S L P G HB ES HP HF; [lia|]. cbn [emit_loop]. destruct (loop_head s w S L P (proj1 G) ES (proj1 HP)) as (x & EX & EC & EA). rewrite EX. cbn [bind]. rewrite EC. destruct (Nat.leb_spec P (length L)) as [LP|LP].
  - rewrite (EA LP). cbn [bind]. rewrite HQ. cbn [perform bind]. pose proof (log_call w S (nth (P - 1) L 0) G) as G0. pose proof (slots_size _ _ _ _ _ (proj1 (proj2 (proj1 G))) ES) as HN.
    destruct (set_ginv (log w (ECall (nth (P - 1) L 0))) S s L P inc (P + 1) G0 ES ltac:(apply inc_it; unfold bounded in HB; lia)) as (w1 & E1 & G1 & HH1 & T1). rewrite E1. cbn [bind].
    assert (Hs : s < length S) by (apply nth_error_Some; congruence).
    destruct (IH w1 (upd S s (Some (L, P + 1))) L (P + 1) G1) as (w2 & E2 & G2 & HH2 & T2); [unfold bounded; rewrite HH1; exact HB | rewrite nth_error_upd, Nat.eqb_refl; now replace (s <? length S) with true by lia | lia | lia|].
    exists w2. split; [exact E2|]. split; [rewrite upd_upd in G2; exact G2|]. split; [rewrite HH2, HH1; reflexivity|]. rewrite T2, T1. cbn [log trace]. rewrite <- app_assoc. f_equal. rewrite (skipn_nth L (P - 1)) by lia. cbn [map app]. now replace (P + 1 - 1) with (P - 1 + 1) by lia.
  - assert (P = length L + 1) by lia. exists w. split; [reflexivity|]. split; [replace (length L + 1) with P by lia; rewrite upd_id by exact ES; exact G|]. split; [reflexivity|]. rewrite skipn_all2 by lia. cbn [map]. now rewrite app_nil_r.
Qed.
Lemma calm_emit beh fuel w S s L P : (forall tr id, beh tr id = []) -> ginv w S -> bounded w -> nth_error S s = Some (Some (L, P)) -> length L < fuel ->
  exists w1, emit beh fuel w s = Done w1 /\ ginv w1 (upd S s (Some (L, length L + 1))) /\ heap w1 = heap w /\ trace w1 = trace w ++ map ECall L.
Proof.
  intros HQ G HB ES HF. destruct (set_ginv w S s L P (fun _ => 0%N) 1 G ES eq_refl) as (w1 & E1 & G1 & HH1 & T1). assert (Hs : s < length S) by (apply nth_error_Some; congruence).
  destruct (calm_loop beh s fuel HQ w1 (upd S s (Some (L, 1))) L 1 G1) as (w2 & E2 & G2 & HH2 & T2); [unfold bounded; rewrite HH1; exact HB | rewrite nth_error_upd, Nat.eqb_refl; now replace (s <? length S) with true by lia | lia | lia|].
  exists w2. unfold emit. rewrite E1. cbn [bind]. split; [exact E2|]. rewrite upd_upd in G2. split; [exact G2|]. split; [congruence|]. rewrite T2, T1. reflexivity.
Qed.
Lemma calm_enough beh s fuel : (forall tr id, beh tr id = []) -> forall w S L P w', ginv w S -> bounded w -> nth_error S s = Some (Some (L, P)) -> 1 <= P <= length L + 1 -> emit_loop beh fuel w s = Done w' -> length L < P + fuel - 1.
Proof.
  intros HQ. induction fuel as [|fuel IH]; intros w S L P w' G HB ES HP H; cbn [emit_loop] in H; [discriminate|]. destruct (loop_head s w S L P (proj1 G) ES (proj1 HP)) as (x & EX & EC & EA). rewrite EX in H. cbn [bind] in H. rewrite EC in H. destruct (Nat.leb_spec P (length L)) as [LP|LP]; [|lia].
  rewrite (EA LP) in H. cbn [bind] in H. rewrite HQ in H. cbn [perform bind] in H. pose proof (log_call w S (nth (P - 1) L 0) G) as G0. pose proof (slots_size _ _ _ _ _ (proj1 (proj2 (proj1 G))) ES) as HN.
  destruct (set_ginv (log w (ECall (nth (P - 1) L 0))) S s L P inc (P + 1) G0 ES ltac:(apply inc_it; unfold bounded in HB; lia)) as (w1 & E1 & G1 & HH1 & T1). rewrite E1 in H. cbn [bind] in H.
  assert (Hs : s < length S) by (apply nth_error_Some; congruence). assert (length L < P + 1 + fuel - 1); [|lia].
  apply (IH w1 (upd S s (Some (L, P + 1))) L (P + 1) w' G1); [unfold bounded; rewrite HH1; exact HB | rewrite nth_error_upd, Nat.eqb_refl; now replace (s <? length S) with true by lia | lia | exact H].
Qed.
Lemma calm_emit_enough beh fuel w S s L P w' : (forall tr id, beh tr id = []) -> ginv w S -> bounded w -> nth_error S s = Some (Some (L, P)) -> emit beh fuel w s = Done w' -> length L < fuel.
Proof.
  intros HQ G HB ES H. destruct (set_ginv w S s L P (fun _ => 0%N) 1 G ES eq_refl) as (w1 & E1 & G1 & HH1 & T1). assert (Hs : s < length S) by (apply nth_error_Some; congruence). unfold emit in H. rewrite E1 in H. cbn [bind] in H. assert (length L < 1 + fuel - 1); [|lia].
  apply (calm_enough beh s fuel HQ w1 (upd S s (Some (L, 1))) L 1 w' G1); [unfold bounded; rewrite HH1; exact HB | rewrite nth_error_upd, Nat.eqb_refl; now replace (s <? length S) with true by lia | lia | exact H].
Qed.

(** *** The invariant outside emissions: the iterator is past the end *)
Definition past (S : astate) : Prop := forall s L P, nth_error S s = Some (Some (L, P)) -> length L < P.
Definition queued (t : list event) (S : astate) : Prop := forall s L P, nth_error S s = Some (Some (L, P)) -> L = queue t s.
Definition settled (w : world) (S : astate) : Prop := ginv w S /\ past S /\ queued (trace w) S.

Lemma settled_start n : settled (start n) (repeat (Some ([], 1)) n).
Proof.
  assert (HR : forall s L P, nth_error (repeat (Some (@nil nat, 1)) n) s = Some (Some (L, P)) -> L = [] /\ P = 1). { intros s L P H. apply nth_error_In, repeat_spec in H. injection H as -> ->. auto. }
  split; [|split].
  - split; [split; [|split]|].
    + unfold start. cbn [sigs]. clear HR. induction n as [|n IH]; cbn [repeat]; constructor; [|exact IH]. split; [exact hv_new | reflexivity].
    + intros i L P k id E K. destruct (HR _ _ _ E) as (-> & _). destruct k; discriminate.
    + constructor.
    + intros s L P E. destruct (HR _ _ _ E) as (-> & _). reflexivity.
  - intros s L P E. destruct (HR _ _ _ E) as (-> & ->). cbn [length]. lia.
  - intros s L P E. destruct (HR _ _ _ E) as (-> & _). reflexivity.
Qed.
Lemma settled_action w S a : settled w S -> bounded w -> valid S a -> exists w' S' evs, simple_action w a = Done w' /\ settled w' S' /\ trace w' = trace w ++ evs /\ length evs <= 1.
Proof.
  intros (G & HP & HQ) HB HV. destruct (step_ginv w S a G HB HV) as (w' & evs & S' & E & EF & G' & T). exists w', S', evs. split; [exact E|]. pose proof (proj1 (proj2 (proj1 G))) as HX.
  destruct EF as [id NI|s0 L0 P0 j id E0 EJ|s0 L0 P0 E0|s0 L0 P0 E0].
  - rewrite app_nil_r in T. split; [|split; [now rewrite app_nil_r | cbn [length]; lia]]. split; [exact G'|]. split; [exact HP|]. now rewrite T.
  - assert (Hs : s0 < length S) by (apply nth_error_Some; congruence). pose proof (HP _ _ _ E0) as P0'. pose proof (slots_nodup _ _ _ _ _ HX E0) as ND. split; [|split; [exact T | cbn [length]; lia]].
    assert (ER : a_remove L0 P0 j = (fill id L0, P0)) by (unfold a_remove; replace (length L0 <=? P0) with true by lia; cbn [orb]; now rewrite (swap_pop_fill _ _ _ ND EJ)). rewrite ER in G' |- *.
    assert (FL : length (fill id L0) = length L0 - 1) by (rewrite <- (swap_pop_fill _ _ _ ND EJ); apply swap_pop_length).
    split; [exact G'|]. split.
    + intros s L P H. rewrite nth_error_upd in H. destruct (Nat.eqb_spec s s0) as [->|D]; [|exact (HP _ _ _ H)]. replace (s0 <? length S) with true in H by lia. cbn [andb] in H. injection H as <- <-. lia.
    + intros s L P H. rewrite T, queue_app. cbn [fold_left step_queue]. rewrite nth_error_upd in H. destruct (Nat.eqb_spec s s0) as [->|D].
      * replace (s0 <? length S) with true in H by lia. cbn [andb] in H. injection H as <- <-. now rewrite (HQ _ _ _ E0).
      * cbn [andb] in H. rewrite <- (HQ _ _ _ H). symmetry. apply fill_out. intros K. apply In_nth_error in K. destruct K as (k & K). pose proof (HX _ _ _ _ _ H K) as A1. rewrite (HX _ _ _ _ _ E0 EJ) in A1. congruence.
  - assert (Hs : s0 < length S) by (apply nth_error_Some; congruence). pose proof (HP _ _ _ E0) as P0'. split; [|split; [exact T | cbn [length]; lia]]. replace (length L0 <? P0) with true in G' |- * by lia. rewrite orb_true_r in G' |- *.
    split; [exact G'|]. split.
    + intros s L P H. rewrite nth_error_upd in H. destruct (Nat.eqb_spec s s0) as [->|D]; [|exact (HP _ _ _ H)]. replace (s0 <? length S) with true in H by lia. cbn [andb] in H. injection H as <- <-. rewrite app_length. cbn [length]. lia.
    + intros s L P H. rewrite T, queue_app. cbn [fold_left step_queue]. rewrite nth_error_upd in H. rewrite (Nat.eqb_sym s0 s). destruct (Nat.eqb_spec s s0) as [->|D]; [|exact (HQ _ _ _ H)]. replace (s0 <? length S) with true in H by lia. cbn [andb] in H. injection H as <- <-. now rewrite (HQ _ _ _ E0).
  - assert (Hs : s0 < length S) by (apply nth_error_Some; congruence). split; [|split; [exact T | cbn [length]; lia]]. split; [exact G'|]. split.
    + intros s L P H. rewrite nth_error_upd in H. destruct (Nat.eqb_spec s s0) as [->|D]; [|exact (HP _ _ _ H)]. replace (s0 <? length S) with true in H by lia. cbn [andb] in H. injection H as <- <-. cbn [length]. lia.
    + intros s L P H. rewrite T, queue_app. cbn [fold_left step_queue]. rewrite nth_error_upd in H. rewrite (Nat.eqb_sym s0 s). destruct (Nat.eqb_spec s s0) as [->|D]; [|exact (HQ _ _ _ H)]. replace (s0 <? length S) with true in H by lia. cbn [andb] in H. now injection H as <- <-.
Qed.
Lemma settled_emit beh fuel w S s L P : (forall tr id, beh tr id = []) -> settled w S -> bounded w -> nth_error S s = Some (Some (L, P)) -> length L < fuel ->
  exists w', emit beh fuel w s = Done w' /\ settled w' (upd S s (Some (L, length L + 1))) /\ heap w' = heap w /\ trace w' = trace w ++ map ECall (queue (trace w) s).
Proof.
  intros HQ (G & HP & HU) HB ES HF. destruct (calm_emit beh fuel w S s L P HQ G HB ES HF) as (w' & E & G' & HH & T). assert (Hs : s < length S) by (apply nth_error_Some; congruence). exists w'. split; [exact E|]. split; [|split; [exact HH | rewrite T; now rewrite (HU _ _ _ ES)]]. split; [exact G'|]. split.
  - intros i Li Pi H. rewrite nth_error_upd in H. destruct (Nat.eqb_spec i s) as [->|D]; [|exact (HP _ _ _ H)]. replace (s <? length S) with true in H by lia. cbn [andb] in H. injection H as <- <-. lia.
  - intros i Li Pi H. rewrite T, queue_calls. rewrite nth_error_upd in H. destruct (Nat.eqb_spec i s) as [->|D]; [|exact (HU _ _ _ H)]. replace (s <? length S) with true in H by lia. cbn [andb] in H. injection H as <- <-. exact (HU _ _ _ ES).
Qed.

Lemma past_remove L P j id : NoDup L -> nth_error L j = Some id ->
  fst (a_remove L P j) = fill id L \/ exists A B c D z, L = A ++ id :: B ++ c :: D ++ [z] /\ fst (a_remove L P j) = A ++ c :: B ++ z :: D.
Proof.
  intros ND H. unfold a_remove. destruct ((length L <=? P) || (P =? 0) || (P <=? j)) eqn:E; [left; exact (swap_pop_fill _ _ _ ND H)|]. apply orb_false_elim in E. destruct E as (E & E3). apply orb_false_elim in E. destruct E as (E1 & E2). apply Nat.leb_gt in E1, E3. apply Nat.eqb_neq in E2. cbn [fst].
  destruct (Nat.eq_dec j (P - 1)) as [->|D].
  - left. rewrite upd_id by (rewrite H; now rewrite (nth_error_nth _ _ 0 H)). exact (swap_pop_fill _ _ _ ND H).
  - right. assert (NK : nth_error L (P - 1) = Some (nth (P - 1) L 0)) by (apply nth_at; lia). set (y := nth (P - 1) L 0) in *. destruct (split_at_nth L (P - 1) y NK) as (A & B & EL & HA). destruct (snoc_cases B) as [->|(B' & z & ->)]; [rewrite EL, app_length in E1; cbn [length] in E1; lia|].
    assert (HJ : nth_error A j = Some id) by (rewrite EL, nth_error_app1 in H by lia; exact H). destruct (split_at_nth A j id HJ) as (A1 & C & EA & HA1). exists A1, C, y, B', z. clearbody y. subst A L. rewrite <- app_assoc. cbn [app]. split; [reflexivity|].
    rewrite upd_mid by (symmetry; exact HA1). replace (A1 ++ y :: C ++ y :: B' ++ [z]) with ((A1 ++ y :: C) ++ y :: B' ++ [z]) by (rewrite <- app_assoc; reflexivity).
    replace (P - 1) with (length (A1 ++ y :: C)) by (rewrite <- HA, !app_length; reflexivity). rewrite swap_pop_mid, <- app_assoc. reflexivity.
Qed.
