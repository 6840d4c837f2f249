(** Emission: callbacks that connect and disconnect slots. *)
From Coq Require Import Permutation.
From Verif Require Import CellModel CellProofs VectorModel VectorProofs VectorHistory VectorCopy SignalSpec SignalModel PoolProofs SignalProofs.
Open Scope nat_scope.

(** *** Removal, as lists *)
Lemma swap_pop_last A (x : nat) : swap_pop (A ++ [x]) (length A) = A.
Proof. unfold swap_pop. rewrite upd_mid by reflexivity. apply removelast_last. Qed.
Lemma swap_pop_mid A (x : nat) B z : swap_pop (A ++ x :: B ++ [z]) (length A) = A ++ z :: B.
Proof.
  unfold swap_pop. rewrite upd_mid by reflexivity. assert (E : nth (length (A ++ x :: B ++ [z]) - 1) (A ++ x :: B ++ [z]) 0 = z).
  { replace (A ++ x :: B ++ [z]) with ((A ++ x :: B) ++ [z]) by (now rewrite <- app_assoc). rewrite app_length. cbn [length]. rewrite Nat.add_sub, app_nth2, Nat.sub_diag by lia. reflexivity. }
  rewrite E. replace (A ++ z :: B ++ [z]) with ((A ++ z :: B) ++ [z]) by (now rewrite <- app_assoc). apply removelast_last.
Qed.
Lemma split_at_nth (L : list nat) j x : nth_error L j = Some x -> exists A B, L = A ++ x :: B /\ length A = j.
Proof. intros H. destruct (nth_error_split _ _ H) as (A & B & E & HL). eauto. Qed.
Lemma snoc_cases (B : list nat) : B = [] \/ exists B' z, B = B' ++ [z].
Proof. destruct B as [|b B]; [now left|]. right. destruct (@exists_last _ (b :: B) ltac:(discriminate)) as (B' & z & E). eauto. Qed.

Lemma snoc_events (t : list event) : t = [] \/ exists t' e, t = t' ++ [e].
Proof. destruct t as [|b B]; [now left|]. right. destruct (@exists_last _ (b :: B) ltac:(discriminate)) as (B' & z & E). eauto. Qed.

Lemma swap_pop_perm L j x : nth_error L j = Some x -> Permutation (x :: swap_pop L j) L.
Proof.
  intros H. destruct (split_at_nth L j x H) as (A & B & -> & <-). destruct (snoc_cases B) as [->|(B' & z & ->)].
  - rewrite swap_pop_last. apply Permutation_cons_append.
  - rewrite swap_pop_mid. rewrite Permutation_middle. apply Permutation_app_head. rewrite perm_swap. rewrite perm_swap. apply perm_skip. apply Permutation_cons_append.
Qed.

Lemma firstn_app_le {B} (l l' : list B) n : n <= length l -> firstn n (l ++ l') = firstn n l.
Proof. intros H. rewrite firstn_app. replace (n - length l) with 0 by lia. now rewrite firstn_O, app_nil_r. Qed.
Lemma skipn_app_le {B} (l l' : list B) n : n <= length l -> skipn n (l ++ l') = skipn n l ++ l'.
Proof. intros H. rewrite skipn_app. now replace (n - length l) with 0 by lia. Qed.

Lemma remove_later L P j x : nth_error L j = Some x -> P <= j -> a_remove L P j = (swap_pop L j, P) /\ firstn P (swap_pop L j) = firstn P L /\ Permutation (x :: skipn P (swap_pop L j)) (skipn P L).
Proof.
  intros H HP. unfold a_remove. replace (P <=? j) with true by lia. rewrite orb_true_r. split; [reflexivity|]. destruct (split_at_nth L j x H) as (A & B & -> & <-). destruct (snoc_cases B) as [->|(B' & z & ->)].
  - rewrite swap_pop_last, firstn_app_le, skipn_app_le by lia. split; [reflexivity | apply Permutation_cons_append].
  - rewrite swap_pop_mid, !firstn_app_le, !skipn_app_le by lia. split; [reflexivity|]. rewrite Permutation_middle. apply Permutation_app_head. rewrite perm_swap, perm_swap. apply perm_skip, Permutation_cons_append.
Qed.
Lemma remove_called L P j x : nth_error L j = Some x -> j < P ->
  let (L', P') := a_remove L P j in Permutation (x :: firstn P' L') (firstn P L) /\ Permutation (skipn P' L') (skipn P L) /\ P' <= P.
Proof.
  intros H HP. assert (Hj : j < length L) by (apply nth_error_Some; congruence). unfold a_remove. replace (P <=? j) with false by lia. replace (P =? 0) with false by lia. rewrite !orb_false_r. destruct (Nat.leb_spec (length L) P) as [HL|HL].
  - pose proof (swap_pop_length L j) as SL. rewrite !firstn_all2, !skipn_all2 by lia. split; [now apply swap_pop_perm | split; [reflexivity | lia]].
  - set (k := P - 1). assert (NK : nth_error L k = Some (nth k L 0)) by (apply nth_at; lia). set (y := nth k L 0) in *. destruct (split_at_nth L k y NK) as (A & B & E & HA). destruct (snoc_cases B) as [->|(B' & z & ->)]; [rewrite E, app_length in HL; cbn [length] in HL; lia|].
    assert (HP' : P = length (A ++ [y])) by (rewrite app_length; cbn [length]; lia). assert (FP : firstn P L = A ++ [y]) by (rewrite E; replace (A ++ y :: B' ++ [z]) with ((A ++ [y]) ++ B' ++ [z]) by (now rewrite <- app_assoc); rewrite HP', firstn_app_le, firstn_all by lia; reflexivity).
    assert (SP : skipn P L = B' ++ [z]) by (rewrite E; replace (A ++ y :: B' ++ [z]) with ((A ++ [y]) ++ B' ++ [z]) by (now rewrite <- app_assoc); rewrite HP', skipn_app_le, skipn_all by lia; reflexivity). rewrite FP, SP.
    destruct (Nat.eq_dec j k) as [EJ|DJ].
    + rewrite EJ in *. rewrite NK in H. injection H as <-. rewrite upd_id by exact NK. rewrite E, <- HA, swap_pop_mid, firstn_app_le, firstn_all, skipn_app_le, skipn_all by lia. split; [apply Permutation_cons_append|]. split; [apply Permutation_cons_append | lia].
    + assert (HJ : nth_error A j = Some x) by (rewrite E, nth_error_app1 in H by lia; exact H). destruct (split_at_nth A j x HJ) as (A1 & C & EA & HA1). rewrite E, EA.
      rewrite <- app_assoc. cbn [app]. rewrite upd_mid by (symmetry; exact HA1). replace (A1 ++ y :: C ++ y :: B' ++ [z]) with ((A1 ++ y :: C) ++ y :: B' ++ [z]) by (rewrite <- app_assoc; reflexivity).
      assert (HK : k = length (A1 ++ y :: C)) by (rewrite <- HA, EA, !app_length; reflexivity). rewrite HK, swap_pop_mid, firstn_app_le, firstn_all, skipn_app_le, skipn_all by lia. cbn [app]. split; [|split; [apply Permutation_cons_append | lia]].
      rewrite <- app_assoc. cbn [app]. rewrite Permutation_middle. apply Permutation_app_head. apply perm_skip. apply Permutation_cons_append.
Qed.
Lemma remove_perm L P j x : nth_error L j = Some x -> Permutation (x :: fst (a_remove L P j)) L.
Proof.
  intros H. destruct (Nat.lt_ge_cases j P) as [HP|HP].
  - pose proof (remove_called L P j x H HP) as R. destruct (a_remove L P j) as [L' P']. destruct R as (R1 & R2 & _). cbn [fst]. rewrite <- (firstn_skipn P' L') at 1. rewrite <- (firstn_skipn P L) at 1. rewrite app_comm_cons. now apply Permutation_app.
  - destruct (remove_later L P j x H HP) as (-> & _). now apply swap_pop_perm.
Qed.

(** *** The connected slots *)
Lemma connected_app t evs s : connected (t ++ evs) s = fold_left step_connected evs (connected t) s.
Proof. unfold connected. now rewrite fold_left_app. Qed.
Lemma filter_perm {B} (f : B -> bool) l l' : Permutation l l' -> Permutation (filter f l) (filter f l').
Proof.
  induction 1 as [|x l l' H IH|x y l|l l' l'' H1 IH1 H2 IH2]; cbn [filter]; [reflexivity | | |]. { destruct (f x); [now apply perm_skip | exact IH]. } { destruct (f x), (f y); try reflexivity. apply perm_swap. } { now rewrite IH1. }
Qed.
Lemma without_out id l : ~ In id l -> without id l = l.
Proof.
  induction l as [|x l IH]; intros H; [reflexivity|]. unfold without in *. cbn [filter]. destruct (Nat.eqb_spec x id) as [->|D]; [exfalso; apply H; now left|]. cbn [negb]. f_equal. apply IH. intros K. apply H. now right.
Qed.
Lemma without_in id x l : In x (without id l) <-> In x l /\ x <> id.
Proof. unfold without. rewrite filter_In. rewrite negb_true_iff, Nat.eqb_neq. reflexivity. Qed.
Lemma without_perm id L L' C : NoDup L -> Permutation (id :: L') L -> Permutation L C -> Permutation L' (without id C).
Proof.
  intros ND H1 H2. apply (Permutation_trans (l' := without id (id :: L'))); [|apply filter_perm; exact (Permutation_trans H1 H2)]. unfold without. cbn [filter]. rewrite Nat.eqb_refl. cbn [negb]. fold (without id L'). rewrite without_out; [reflexivity|]. apply (Permutation_NoDup (Permutation_sym H1)) in ND. now inversion ND.
Qed.
Lemma stays_connected s id evs : forall t, In id (connected t s) -> ~ removed s evs id -> In id (connected (t ++ evs) s).
Proof.
  intros t. rewrite connected_app. generalize (connected t). induction evs as [|e evs IH]; intros f H NR; [exact H|]. cbn [fold_left]. apply IH.
  - unfold removed in NR. cbn [In] in NR. destruct e as [i|s' i|i|s'|d s']; cbn [step_connected]; [exact H | | | |].
    + destruct (s' =? s); [apply in_or_app; now left | exact H].
    + apply without_in. split; [exact H|]. intros ->. apply NR. left. now left.
    + destruct (Nat.eqb_spec s' s) as [->|]; [|exact H]. exfalso. apply NR. right. left. now left.
    + destruct (Nat.eqb_spec d s) as [->|]; [exfalso; apply NR; right; right; exists s'; left; now left|]. destruct (Nat.eqb_spec s' s) as [->|]; [|exact H]. exfalso. apply NR. right. right. exists d. right. now left.
  - intros K. apply NR. unfold removed in *. cbn [In]. destruct K as [K|[K|(s' & [K|K])]]; eauto 8.
Qed.

(** The world agrees with its history. *)
Definition ginv (w : world) (S : astate) : Prop := wrep w S /\ forall s L P, nth_error S s = Some (Some (L, P)) -> Permutation L (connected (trace w) s).

Lemma effect_connected h S a evs S' h' hp t : effect h S a evs S' h' -> indexed hp S -> (forall s L P, nth_error S s = Some (Some (L, P)) -> Permutation L (connected t s)) ->
  forall s L P, nth_error S' s = Some (Some (L, P)) -> Permutation L (connected (t ++ evs) s).
Proof.
  intros E HX H s L P ES. rewrite connected_app. destruct E as [id NI|s0 L0 P0 j id E0 EJ|s0 L0 P0 E0|s0 L0 P0 E0]; cbn [fold_left step_connected].
  - exact (H _ _ _ ES).
  - assert (Hs : s0 < length S) by (apply nth_error_Some; congruence). rewrite nth_error_upd in ES. destruct (Nat.eqb_spec s s0) as [->|D].
    + replace (s0 <? length S) with true in ES by lia. cbn [andb] in ES. injection ES as ES. pose proof (remove_perm L0 P0 j id EJ) as RP. rewrite ES in RP. cbn [fst] in RP. exact (without_perm id L0 L _ (slots_nodup _ _ _ _ _ HX E0) RP (H _ _ _ E0)).
    + cbn [andb] in ES. pose proof (H _ _ _ ES) as HP. rewrite without_out; [exact HP|]. intros K. apply (Permutation_in _ (Permutation_sym HP)) in K. apply In_nth_error in K. destruct K as (k & K).
      pose proof (HX _ _ _ _ _ ES K) as A1. pose proof (HX _ _ _ _ _ E0 EJ) as A2. rewrite A1 in A2. injection A2 as A2 A3. lia.
  - assert (Hs : s0 < length S) by (apply nth_error_Some; congruence). rewrite nth_error_upd in ES. rewrite (Nat.eqb_sym s0 s). destruct (Nat.eqb_spec s s0) as [->|D].
    + replace (s0 <? length S) with true in ES by lia. cbn [andb] in ES. injection ES as <- <-. apply Permutation_app_tail. exact (H _ _ _ E0).
    + exact (H _ _ _ ES).
  - assert (Hs : s0 < length S) by (apply nth_error_Some; congruence). rewrite nth_error_upd in ES. rewrite (Nat.eqb_sym s0 s). destruct (Nat.eqb_spec s s0) as [->|D].
    + replace (s0 <? length S) with true in ES by lia. cbn [andb] in ES. injection ES as <- <-. reflexivity.
    + exact (H _ _ _ ES).
Qed.

Lemma step_ginv w S a : ginv w S -> bounded w -> valid S a -> exists w' evs S', simple_action w a = Done w' /\ effect (length (heap w)) S a evs S' (length (heap w')) /\ ginv w' S' /\ trace w' = trace w ++ evs.
Proof.
  intros (R & H) HB HV. destruct (action_rep w S a R HB HV) as (w' & evs & S' & E & EF & R' & T). exists w', evs, S'. split; [exact E|]. split; [exact EF|]. split; [|exact T]. split; [exact R'|]. rewrite T. destruct R as (_ & HX & _). exact (effect_connected _ _ _ _ _ _ _ _ EF HX H).
Qed.

(** *** One callback *)
Lemma calls_app t1 t2 : calls (t1 ++ t2) = calls t1 ++ calls t2.
Proof. unfold calls. now rewrite map_app, concat_app. Qed.
Lemma effect_quiet h S a evs S' h' : effect h S a evs S' h' -> calls evs = [] /\ h <= h' /\ forall id, ~ In (ECall id) evs.
Proof. intros E. destruct E; cbn; repeat split; try lia; intros k; intuition discriminate. Qed.

Definition called_ok (s : nat) (t0 t : list event) : Prop := forall t1 id t2, t = t1 ++ ECall id :: t2 -> In id (connected (t0 ++ t1) s).
(** During an emission of [s] that started after [t0] with [h0] slots: [t] happened, [L] is connected, the first [P] of them are done. *)
Definition einv (s : nat) (t0 : list event) (h0 : nat) (h : nat) (t : list event) (L : list nat) (P : nat) : Prop :=
  NoDup (calls t) /\ (forall id, In id (firstn P L) -> In id (calls t) \/ h0 <= id) /\ (forall id, In id (skipn P L) -> ~ In id (calls t)) /\ (forall id, In id (calls t) -> id < h) /\ called_ok s t0 t /\ h0 <= h.

Lemma called_ok_quiet s t0 t evs : called_ok s t0 t -> (forall id, ~ In (ECall id) evs) -> called_ok s t0 (t ++ evs).
Proof.
  intros H Q t1 id t2 E. assert (K : forall (a b c d : list event), a ++ b = c ++ d -> (exists l, c = a ++ l /\ b = l ++ d) \/ (exists l, a = c ++ l /\ d = l ++ b)).
  { clear. induction a as [|x a IH]; intros b c d E; [left; exists c; auto|]. destruct c as [|y c]; [right; exists (x :: a); auto|]. injection E as -> E. destruct (IH _ _ _ E) as [(l & -> & ->)|(l & -> & ->)]; [left | right]; exists l; auto. }
  destruct (K _ _ _ _ E) as [(l & -> & EV)|(l & EV & E2)].
  - exfalso. apply (Q id). rewrite EV. apply in_or_app. right. now left.
  - destruct l as [|e l]; [exfalso; apply (Q id); rewrite <- (app_nil_l evs); cbn in E2; rewrite <- E2; now left|]. injection E2 as <- E2. exact (H t1 id l EV).
Qed.

(** The position is not lost: the running slot is still there, or everything is done, or nothing will be connected any more. *)
Definition kinv (s self : nat) (L : list nat) (P : nat) (acts : list action) : Prop := (In self (firstn P L) \/ length L < P) \/ ~ In (AConnect s) acts.
Definition good (s self : nat) (acts : list action) : Prop := forall a b, acts = a ++ AConnect s :: b -> ~ In (ADisconnect self) a.

Lemma effect_einv h S a evs S' h' s t0 h0 t L P self r hp : effect h S a evs S' h' -> indexed hp S -> length hp = h -> nth_error S s = Some (Some (L, P)) -> einv s t0 h0 h t L P -> kinv s self L P (a :: r) -> good s self (a :: r) -> P <= h + 2 ->
  exists L' P', nth_error S' s = Some (Some (L', P')) /\ einv s t0 h0 h' (t ++ evs) L' P' /\ kinv s self L' P' r /\ good s self r /\ P' <= h' + 2.
Proof.
  intros E HX HH ES (I1 & I2 & I3 & I4 & I5 & I6) HK HG HP. assert (Hs : s < length S) by (apply nth_error_Some; congruence).
  assert (QE : calls (t ++ evs) = calls t) by (rewrite calls_app; destruct (effect_quiet _ _ _ _ _ _ E) as (-> & _); apply app_nil_r). assert (OK : called_ok s t0 (t ++ evs)) by (apply called_ok_quiet; [exact I5 | apply (effect_quiet _ _ _ _ _ _ E)]).
  assert (HH' : h <= h') by apply (effect_quiet _ _ _ _ _ _ E).
  assert (GR : good s self r) by (intros x y -> K; apply (HG (a :: x) y eq_refl); now right).
  assert (EI : forall L' P', (forall id, In id (firstn P' L') -> In id (calls t) \/ h0 <= id) -> (forall id, In id (skipn P' L') -> ~ In id (calls t)) -> einv s t0 h0 h' (t ++ evs) L' P').
  { intros L' P' A1 A2. unfold einv. rewrite QE. repeat split; auto; try lia. intros id K. specialize (I4 id K). lia. }
  destruct E as [id NI|s0 L0 P0 j id E0 EJ|s0 L0 P0 E0|s0 L0 P0 E0].
  - exists L, P. split; [exact ES|]. split; [apply EI; assumption|]. split; [|split; [exact GR | lia]]. destruct HK as [HK|HK]; [now left | right; intros K; apply HK; now right].
  - rewrite nth_error_upd. destruct (Nat.eqb_spec s s0) as [<-|D].
    + rewrite ES in E0. injection E0 as <- <-. replace (s <? length S) with true by lia. cbn [andb]. destruct (a_remove L P j) as [L' P'] eqn:ER. exists L', P'. split; [reflexivity|].
      assert (KK : kinv s self L P (ADisconnect id :: r) -> (self <> id -> In self (firstn P L) -> In self (firstn P' L')) -> (length L < P -> length L' < P') -> kinv s self L' P' r).
      { intros [[K|K]|K] K1 K2.
        - destruct (Nat.eq_dec self id) as [->|DS]; [|left; left; auto]. right. intros C. apply in_split in C. destruct C as (x & y & ->). apply (HG (ADisconnect id :: x) y eq_refl). now left.
        - left. right. auto.
        - right. intros C. apply K. now right. }
      assert (LS : length L' = length L - 1) by (pose proof (a_remove_length L P j) as AL; rewrite ER in AL; exact AL).
      destruct (Nat.lt_ge_cases j P) as [JP|JP].
      * pose proof (remove_called L P j id EJ JP) as RC. rewrite ER in RC. destruct RC as (R1 & R2 & R3). split; [|split; [|split; [exact GR | lia]]].
        -- apply EI; intros k K; [apply I2; apply (Permutation_in _ R1); now right | apply I3; exact (Permutation_in _ R2 K)].
        -- apply KK; [exact HK | | ].
           ++ intros DS K. apply (Permutation_in _ (Permutation_sym R1)) in K. destruct K as [K|K]; [congruence | exact K].
           ++ intros LP. unfold a_remove in ER. replace (length L <=? P) with true in ER by lia. cbn [orb] in ER. injection ER as _ <-. lia.
      * destruct (remove_later L P j id EJ JP) as (RE & R1 & R2). rewrite ER in RE. injection RE as -> ->. split; [|split; [|split; [exact GR | lia]]].
        -- apply EI; intros k K; [apply I2; now rewrite <- R1 | apply I3; apply (Permutation_in _ R2); now right].
        -- apply KK; [exact HK | now rewrite R1 |]. intros LP. assert (j < length L) by (apply nth_error_Some; congruence). lia.
    + exists L, P. split; [exact ES|]. split; [apply EI; assumption|]. split; [|split; [exact GR | lia]]. destruct HK as [HK|HK]; [now left | right; intros K; apply HK; now right].
  - rewrite nth_error_upd. destruct (Nat.eqb_spec s s0) as [<-|D].
    + rewrite ES in E0. injection E0 as <- <-. replace (s <? length S) with true by lia. cbn [andb]. eexists _, _. split; [reflexivity|]. pose proof (slots_size _ _ _ _ _ HX ES) as HN.
      destruct HK as [HK|HK]; [|exfalso; apply HK; now left]. assert (NP : P <> 0) by (intros ->; destruct HK as [HK|HK]; [destruct HK | lia]). replace (P =? 0) with false by lia. cbn [orb]. destruct (Nat.ltb_spec (length L) P) as [LP|LP].
      * split; [|split; [|split; [exact GR | lia]]].
        -- apply EI; rewrite ?firstn_all2, ?skipn_all2 by (rewrite app_length; cbn [length]; lia); [|intros k []]. intros k K. apply in_app_or in K. destruct K as [K|[<-|[]]]; [|right; lia]. apply I2. now rewrite firstn_all2 by lia.
        -- left. right. rewrite app_length. cbn [length]. lia.
      * split; [|split; [|split; [exact GR | lia]]].
        -- apply EI; rewrite ?firstn_app_le, ?skipn_app_le by lia; [exact I2|]. intros k K. apply in_app_or in K. destruct K as [K|[<-|[]]]; [now apply I3|]. intros C. apply I4 in C. lia.
        -- left. destruct HK as [HK|HK]; [left; now rewrite firstn_app_le by lia | lia].
    + exists L, P. split; [exact ES|]. split; [apply EI; assumption|]. split; [|split; [exact GR | lia]]. destruct HK as [HK|HK]; [now left | right; intros K; apply HK; now right].
  - rewrite nth_error_upd. destruct (Nat.eqb_spec s s0) as [<-|D].
    + replace (s <? length S) with true by lia. cbn [andb]. exists [], 1. split; [reflexivity|]. split; [apply EI; intros k []|]. split; [left; right; cbn; lia | split; [exact GR | lia]].
    + exists L, P. split; [exact ES|]. split; [apply EI; assumption|]. split; [|split; [exact GR | lia]]. destruct HK as [HK|HK]; [now left | right; intros K; apply HK; now right].
Qed.

(** *** Slot objects are never reused *)
Lemma bind_inv {B C} (x : outcome B) (f : B -> outcome C) c : bind x f = Done c -> exists b, x = Done b /\ f b = Done c.
Proof. destruct x; [|discriminate]. eauto. Qed.
Ltac binds H := repeat (let y := fresh "y" in let E := fresh "E" in apply bind_inv in H; destruct H as (y & E & H)).
Lemma put_heap w s x w' : sig_put w s x = Done w' -> heap w' = heap w.
Proof. unfold sig_put. intros H. binds H. now injection H as <-. Qed.
Lemma set_slot_heap w o f w' : set_slot w o f = Done w' -> length (heap w') = length (heap w).
Proof.
  unfold set_slot. destruct o as [id|]; [|discriminate]. intros H. apply bind_inv in H. destruct H as (x & E & H). apply bind_inv in H. destruct H as (h & E2 & H). injection H as <-. cbn [heap]. unfold vset in E2. destruct (id <? length (heap w)); [|discriminate]. injection E2 as <-. apply upd_length.
Qed.
Lemma sig_disconnect_heap w s id w' : sig_disconnect w s id = Done w' -> length (heap w') = length (heap w).
Proof.
  unfold sig_disconnect. intros H. do 4 (apply bind_inv in H; destruct H as (? & ? & H)). destruct (_ || _)%N.
  - do 4 (apply bind_inv in H; destruct H as (? & ? & H)). apply bind_inv in H. destruct H as (w1 & E1 & H). apply bind_inv in H. destruct H as (? & ? & H). apply bind_inv in H. destruct H as (w2 & E2 & H). injection H as <-. cbn [log heap]. rewrite (put_heap _ _ _ _ E2). exact (set_slot_heap _ _ _ _ E1).
  - do 4 (apply bind_inv in H; destruct H as (? & ? & H)). apply bind_inv in H. destruct H as (w1 & E1 & H). do 3 (apply bind_inv in H; destruct H as (? & ? & H)). apply bind_inv in H. destruct H as (w2 & E2 & H). apply bind_inv in H. destruct H as (? & ? & H). apply bind_inv in H. destruct H as (w3 & E3 & H).
    injection H as <-. cbn [log heap]. rewrite (put_heap _ _ _ _ E3), (set_slot_heap _ _ _ _ E2). exact (set_slot_heap _ _ _ _ E1).
Qed.
Lemma simple_heap w a w' : simple_action w a = Done w' -> length (heap w) <= length (heap w').
Proof.
  destruct a as [id|s|s|s]; cbn [simple_action]; intros H.
  - unfold conn_disconnect in H. destruct (lock w (Some id)); [|injection H as <-; lia]. apply bind_inv in H. destruct H as (? & ? & H). rewrite (sig_disconnect_heap _ _ _ _ H). lia.
  - apply bind_inv in H. destruct H as ((w1 & i) & E & H). injection H as <-. unfold sig_connect in E. apply bind_inv in E. destruct E as (? & ? & E). apply bind_inv in E. destruct E as ((? & ?) & ? & E). apply bind_inv in E. destruct E as (bk & ? & E). apply bind_inv in E. destruct E as (w2 & E2 & E).
    destruct bk; [|discriminate]. injection E as <- _. cbn [log heap]. rewrite (put_heap _ _ _ _ E2). cbn [heap]. rewrite app_length. lia.
  - unfold sig_clear in H. do 2 (apply bind_inv in H; destruct H as (? & ? & H)). apply bind_inv in H. destruct H as (w2 & E2 & H). injection H as <-. cbn [log heap]. rewrite (put_heap _ _ _ _ E2). lia.
  - injection H as <-. lia.
Qed.
Lemma set_iterator_heap w s f w' : set_iterator w s f = Done w' -> heap w' = heap w.
Proof. unfold set_iterator. intros H. apply bind_inv in H. destruct H as (? & ? & H). exact (put_heap _ _ _ _ H). Qed.
Lemma perform_heap emit acts : (forall w t w', emit w t = Done w' -> length (heap w) <= length (heap w')) -> forall w w', perform emit acts w = Done w' -> length (heap w) <= length (heap w').
Proof.
  intros HE. induction acts as [|a r IH]; intros w w' H; cbn [perform] in H; [injection H as <-; lia|]. apply bind_inv in H. destruct H as (w1 & E1 & H). specialize (IH _ _ H).
  assert (length (heap w) <= length (heap w1)); [|lia]. destruct a; try exact (simple_heap _ _ _ E1). exact (HE _ _ _ E1).
Qed.
Lemma emit_loop_heap beh fuel : forall w s w', emit_loop beh fuel w s = Done w' -> length (heap w) <= length (heap w').
Proof.
  induction fuel as [|fuel IH]; intros w s w' H; cbn [emit_loop] in H; [discriminate|]. apply bind_inv in H. destruct H as (x & E & H). destruct (_ <? _)%N; [|injection H as <-; lia].
  apply bind_inv in H. destruct H as ([id|] & E1 & H); [|discriminate]. apply bind_inv in H. destruct H as (w1 & E2 & H). apply bind_inv in H. destruct H as (w2 & E3 & H). specialize (IH _ _ _ H) as I2. rewrite (set_iterator_heap _ _ _ _ E3) in I2.
  apply perform_heap in E2; [cbn [log heap] in E2; lia|]. intros wa ta wb K. apply bind_inv in K. destruct K as (wc & K1 & K). rewrite <- (set_iterator_heap _ _ _ _ K1). exact (IH _ _ _ K).
Qed.
Lemma emit_heap beh fuel w s w' : emit beh fuel w s = Done w' -> length (heap w) <= length (heap w').
Proof. unfold emit. intros H. apply bind_inv in H. destruct H as (w1 & E & H). rewrite <- (set_iterator_heap _ _ _ _ E). exact (emit_loop_heap _ _ _ _ _ H). Qed.

Definition noemit (a : action) : Prop := match a with AEmit _ => False | _ => True end.
Lemma bounded_le w w' : bounded w' -> length (heap w) <= length (heap w') -> bounded w.
Proof. unfold bounded. lia. Qed.

(** *** A callback without nested emission *)
Lemma perform_inv emit s t0 h0 self acts : Forall noemit acts -> forall w S t L P w', ginv w S -> trace w = t0 ++ t -> nth_error S s = Some (Some (L, P)) -> einv s t0 h0 (length (heap w)) t L P -> kinv s self L P acts -> good s self acts ->
  P <= length (heap w) + 2 -> perform emit acts w = Done w' -> bounded w' ->
  exists S' t' L' P', ginv w' S' /\ trace w' = t0 ++ t' /\ nth_error S' s = Some (Some (L', P')) /\ einv s t0 h0 (length (heap w')) t' L' P' /\ P' <= length (heap w') + 2.
Proof.
  intros HN. induction acts as [|a r IH]; intros w S t L P w' G T ES HE HK HG HP H HB; cbn [perform] in H.
  - injection H as <-. exists S, t, L, P. auto.
  - inversion HN as [|? ? NA NR]; subst. apply bind_inv in H. destruct H as (w1 & E1 & H). assert (E1' : simple_action w a = Done w1) by (destruct a; try exact E1; contradiction).
    assert (HM : length (heap w1) <= length (heap w')). { apply (perform_heap (fun w _ => Done w) r); [intros ? ? ? K; injection K as <-; lia|]. clear - H NR. revert w1 H. induction r as [|x r IHr]; intros w1 H; [exact H|]. cbn [perform] in *. inversion NR as [|? ? NX NR']; subst. apply bind_inv in H. destruct H as (w2 & E2 & H). destruct x; try contradiction; rewrite E2; cbn [bind]; exact (IHr NR' _ H). }
    pose proof (simple_heap _ _ _ E1') as HM1. assert (HBw : bounded w) by (apply (bounded_le w w' HB); lia). destruct (G) as (R & GC). pose proof (action_valid w S a w1 R E1') as HV. assert (HV' : valid S a) by (destruct a; try exact HV; contradiction).
    destruct (step_ginv w S a G HBw HV') as (w1' & evs & S1 & E1'' & EF & G1 & T1). rewrite E1' in E1''. injection E1'' as <-. pose proof R as (_ & HX & _).
    destruct (effect_einv _ _ _ _ _ _ s t0 h0 t L P self r _ EF HX eq_refl ES HE HK HG HP) as (L1 & P1 & ES1 & HE1 & HK1 & HG1 & HP1).
    apply (IH NR w1 S1 (t ++ evs) L1 P1 w' G1); auto. now rewrite T1, T, app_assoc.
Qed.

Lemma it_lt P (L : list nat) : 1 <= P -> (it_of P <? N.of_nat (length L))%N = (P <=? length L).
Proof. intros H. unfold it_of. replace (P =? 0) with false by lia. destruct (Nat.leb_spec P (length L)); [apply N.ltb_lt | apply N.ltb_ge]; lia. Qed.
Lemma it_nat P : 1 <= P -> N.to_nat (it_of P) = P - 1.
Proof. intros H. unfold it_of. replace (P =? 0) with false by lia. lia. Qed.
Lemma inc_it P : (N.of_nat P < two64)%N -> inc (it_of P) = it_of (P + 1).
Proof.
  intros H. unfold inc, it_of. replace (P + 1 =? 0) with false by lia. destruct (Nat.eqb_spec P 0) as [->|D]; [reflexivity|]. replace (N.of_nat P - 1 + 1 =? two64)%N with false by (symmetry; apply N.eqb_neq; lia). lia.
Qed.

Lemma log_call w S id : ginv w S -> ginv (log w (ECall id)) S.
Proof. intros (R & G). split; [exact R|]. intros s L P ES. cbn [log trace]. rewrite connected_app. exact (G _ _ _ ES). Qed.

Lemma enter_call s t0 h0 h t L P S hp w : ginv w S -> trace w = t0 ++ t -> hp = heap w -> nth_error S s = Some (Some (L, P)) -> 1 <= P <= length L -> h = length (heap w) -> einv s t0 h0 h t L (P - 1) ->
  einv s t0 h0 h (t ++ [ECall (nth (P - 1) L 0)]) L P.
Proof.
  intros G T -> ES HP -> (I1 & I2 & I3 & I4 & I5 & I6). set (id := nth (P - 1) L 0). destruct G as (R & GC). pose proof R as (_ & HX & _). pose proof (slots_nodup _ _ _ _ _ HX ES) as ND.
  assert (NI : nth_error L (P - 1) = Some id) by (apply nth_at; lia). destruct (split_at_nth L _ _ NI) as (A & B & EL & HA). assert (FP : firstn P L = A ++ [id]) by (rewrite EL; replace (A ++ id :: B) with ((A ++ [id]) ++ B) by (now rewrite <- app_assoc); rewrite firstn_app_le, firstn_all2 by (rewrite app_length; cbn [length]; lia); reflexivity).
  assert (SP : skipn P L = B) by (rewrite EL; replace (A ++ id :: B) with ((A ++ [id]) ++ B) by (now rewrite <- app_assoc); rewrite skipn_app_le, skipn_all2 by (rewrite app_length; cbn [length]; lia); reflexivity).
  assert (FP1 : firstn (P - 1) L = A) by (rewrite EL, firstn_app_le, firstn_all2 by lia; reflexivity). assert (SP1 : skipn (P - 1) L = id :: B) by (rewrite EL, skipn_app_le, skipn_all2 by lia; reflexivity).
  assert (NC : ~ In id (calls t)) by (apply I3; rewrite SP1; now left). assert (EC : calls (t ++ [ECall id]) = calls t ++ [id]) by (rewrite calls_app; reflexivity).
  unfold einv. rewrite EC, FP, SP. repeat split.
  - apply NoDup_rev in I1. rewrite <- (rev_involutive (calls t ++ [id])). apply NoDup_rev. rewrite rev_unit. constructor; [now rewrite <- in_rev | exact I1].
  - intros k K. apply in_app_or in K. destruct K as [K|[<-|[]]]; [|left; apply in_or_app; right; now left]. destruct (I2 k) as [K'|K']; [now rewrite FP1 | left; apply in_or_app; now left | now right].
  - intros k K C. apply in_app_or in C. destruct C as [C|[<-|[]]]; [revert C; apply I3; rewrite SP1; now right|]. rewrite EL in ND. apply NoDup_remove_2 in ND. apply ND. apply in_or_app. now right.
  - intros k K. apply in_app_or in K. destruct K as [K|[<-|[]]]; [now apply I4|]. apply nth_error_Some. rewrite (HX _ _ _ _ _ ES NI). discriminate.
  - intros t1 k t2 E. destruct (snoc_events t2) as [->|(t2' & e & ->)].
    + apply app_inj_tail in E. destruct E as (<- & E). injection E as <-. rewrite <- T. apply (Permutation_in id (GC _ _ _ ES)). exact (nth_error_In _ _ NI).
    + rewrite app_comm_cons, app_assoc in E. apply app_inj_tail in E. destruct E as (E & _). exact (I5 _ _ _ E).
  - exact I6.
Qed.

(** *** The loop *)
Lemma loop_head s w S L P : wrep w S -> nth_error S s = Some (Some (L, P)) -> 1 <= P -> exists x, sig_at w s = Done x /\ (m_slotIterator x <? N.of_nat (fv_size true (m_slots x)))%N = (P <=? length L) /\
  (P <= length L -> fv_at true (m_slots x) (N.to_nat (m_slotIterator x)) = Done (Some (nth (P - 1) L 0))).
Proof.
  intros R ES HP. destruct (rep_sig w S s L P R ES) as (x & EX & HV & IT & _). exists x. split; [exact EX|]. rewrite (hv_size _ _ HV), map_length, IT, it_lt, it_nat by exact HP. split; [reflexivity|]. intros HL.
  rewrite (hv_at _ _ _ HV) by (rewrite map_length; lia). now rewrite nth_map_some by lia.
Qed.

Section Loop.
Variables (beh : list event -> nat -> list action) (s : nat) (t0 : list event) (h0 : nat).

Lemma loop_inv : (forall tr id, Forall noemit (beh tr id) /\ good s id (beh tr id)) -> forall fuel w S t L P w', ginv w S -> trace w = t0 ++ t -> nth_error S s = Some (Some (L, P)) -> 1 <= P -> einv s t0 h0 (length (heap w)) t L (P - 1) ->
  emit_loop beh fuel w s = Done w' -> bounded w' ->
  exists S' t' L' P', ginv w' S' /\ trace w' = t0 ++ t' /\ nth_error S' s = Some (Some (L', P')) /\ einv s t0 h0 (length (heap w')) t' L' (P' - 1) /\ length L' <= P' - 1.
Proof.
  intros HBEH. induction fuel as [|fuel IH]; intros w S t L P w' G T ES HP HE H HB; cbn [emit_loop] in H; [discriminate|]. destruct G as (R & GC). destruct (loop_head s w S L P R ES HP) as (x & EX & EC & EA). rewrite EX in H. cbn [bind] in H. rewrite EC in H. destruct (Nat.leb_spec P (length L)) as [LP|LP].
  - rewrite (EA LP) in H. cbn [bind] in H. set (id := nth (P - 1) L 0) in *. apply bind_inv in H. destruct H as (w1 & E1 & H). apply bind_inv in H. destruct H as (w2 & E2 & H). pose proof (emit_loop_heap _ _ _ _ _ H) as HM. rewrite (set_iterator_heap _ _ _ _ E2) in HM.
    assert (G1 : ginv (log w (ECall id)) S) by (apply log_call; split; assumption). assert (HB1 : bounded w1) by (apply (bounded_le w1 w' HB); lia).
    assert (E0 : einv s t0 h0 (length (heap (log w (ECall id)))) (t ++ [ECall id]) L P). { apply (enter_call s t0 h0 _ t L P S (heap w) w); try assumption; try reflexivity; [split; assumption | lia]. }
    pose proof R as (_ & HX & _). pose proof (slots_size _ _ _ _ _ HX ES) as HN.
    destruct (HBEH (trace (log w (ECall id))) id) as (NE & GO).
    assert (HK0 : kinv s id L P (beh (trace (log w (ECall id))) id)).
    { left. left. assert (NI : nth_error L (P - 1) = Some id) by (apply nth_at; lia). apply nth_error_In with (n := P - 1). rewrite <- (firstn_skipn P L), nth_error_app1 in NI by (rewrite firstn_length; lia). exact NI. }
    assert (T0 : trace (log w (ECall id)) = t0 ++ t ++ [ECall id]) by (cbn [log trace]; rewrite T; apply eq_sym, app_assoc). assert (HP0 : P <= length (heap (log w (ECall id))) + 2) by (cbn [log heap]; lia).
    destruct (perform_inv _ s t0 h0 id _ NE (log w (ECall id)) S (t ++ [ECall id]) L P w1 G1 T0 ES E0 HK0 GO HP0 E1 HB1) as (S1 & t1 & L1 & P1 & G1' & T1 & ES1 & HE1 & HP1).
    assert (BI : inc (it_of P1) = it_of (P1 + 1)) by (apply inc_it; unfold bounded in HB1; lia).
    destruct G1' as (R1 & GC1). destruct (set_iterator_rep w1 S1 s L1 P1 inc (P1 + 1) R1 ES1 BI) as (w2' & E2' & R2 & HH2 & T2). rewrite E2 in E2'. injection E2' as <-.
    assert (Hs1 : s < length S1) by (apply nth_error_Some; congruence).
    apply (IH w2 (upd S1 s (Some (L1, P1 + 1))) t1 L1 (P1 + 1) w'); auto.
    + split; [exact R2|]. intros i Li Pi Ei. rewrite T2. rewrite nth_error_upd in Ei. destruct (Nat.eqb_spec i s) as [->|D]; [|exact (GC1 _ _ _ Ei)]. replace (s <? length S1) with true in Ei by lia. cbn [andb] in Ei. injection Ei as <- <-. exact (GC1 _ _ _ ES1).
    + now rewrite T2.
    + rewrite nth_error_upd, Nat.eqb_refl. now replace (s <? length S1) with true by lia.
    + lia.
    + rewrite HH2, Nat.add_sub. exact HE1.
  - injection H as <-. exists S, t, L, P. split; [split; assumption|]. split; [exact T|]. split; [exact ES|]. split; [exact HE | lia].
Qed.
End Loop.

Lemma restart w S s L P : ginv w S -> nth_error S s = Some (Some (L, P)) -> exists w1, set_iterator w s (fun _ => 0%N) = Done w1 /\ ginv w1 (upd S s (Some (L, 1))) /\ heap w1 = heap w /\ trace w1 = trace w.
Proof.
  intros (R & GC) ES. destruct (set_iterator_rep w S s L P (fun _ => 0%N) 1 R ES eq_refl) as (w1 & E1 & R1 & HH & T1). exists w1. split; [exact E1|]. split; [|auto]. split; [exact R1|]. intros i Li Pi Ei. rewrite T1. rewrite nth_error_upd in Ei.
  destruct (Nat.eqb_spec i s) as [->|D]; [|exact (GC _ _ _ Ei)]. assert (Hs : s < length S) by (apply nth_error_Some; congruence). replace (s <? length S) with true in Ei by lia. cbn [andb] in Ei. injection Ei as <- <-. exact (GC _ _ _ ES).
Qed.

(** What an emission guarantees; [t] is what happened during it. *)
Definition emission_ok (s : nat) (t0 t : list event) : Prop :=
  NoDup (calls t) /\ (forall id, In id (connected t0 s) -> ~ removed s t id -> In id (calls t)) /\ called_ok s t0 t.

Lemma emit_inv beh fuel w S s w' : ginv w S -> (forall tr id, Forall noemit (beh tr id) /\ good s id (beh tr id)) -> emit beh fuel w s = Done w' -> bounded w' ->
  exists S' t, ginv w' S' /\ trace w' = trace w ++ t /\ emission_ok s (trace w) t.
Proof.
  intros G HBEH H HB. unfold emit in H. apply bind_inv in H. destruct H as (w1 & E1 & H). assert (AL : exists p, nth_error S s = Some (Some p)). { unfold set_iterator in E1. apply bind_inv in E1. destruct E1 as (x & EX & _). exact (sig_at_alive w S s x (proj1 G) EX). }
  destruct AL as ([L P] & ES). destruct (restart w S s L P G ES) as (w1' & E1' & G1 & HH & T1). rewrite E1 in E1'. injection E1' as <-. assert (Hs : s < length S) by (apply nth_error_Some; congruence).
  assert (ES1 : nth_error (upd S s (Some (L, 1))) s = Some (Some (L, 1))) by (rewrite nth_error_upd, Nat.eqb_refl; now replace (s <? length S) with true by lia).
  assert (E0 : einv s (trace w) (length (heap w)) (length (heap w1)) [] L (1 - 1)). { rewrite HH. unfold einv. cbn. repeat split; try tauto; try lia; [constructor | intros t1 k t2 K; destruct t1; discriminate]. }
  destruct (loop_inv beh s (trace w) (length (heap w)) HBEH fuel w1 _ [] L 1 w' G1 ltac:(now rewrite T1, app_nil_r) ES1 ltac:(lia) E0 H HB) as (S' & t & L' & P' & G' & T' & ES' & (I1 & I2 & I3 & I4 & I5 & I6) & HL').
  exists S', t. split; [exact G'|]. split; [exact T'|]. split; [exact I1|]. split; [|exact I5]. intros id HI NR. pose proof (stays_connected s id t (trace w) HI NR) as HC. rewrite <- T' in HC. apply (Permutation_in _ (Permutation_sym (proj2 G' _ _ _ ES'))) in HC.
  destruct (I2 id) as [K|K]; [now rewrite firstn_all2 by exact HL' | exact K |]. exfalso. apply (Permutation_in _ (Permutation_sym (proj2 G _ _ _ ES))) in HI. apply In_nth_error in HI. destruct HI as (k & N). destruct G as ((_ & HX & _) & _). pose proof (HX _ _ _ _ _ ES N) as Q. assert (id < length (heap w)) by (apply nth_error_Some; congruence). lia.
Qed.

(** *** Callbacks that only remove: the emission ends *)
Definition only_removes (V : nat -> Prop) (a : action) : Prop := match a with ADisconnect _ => True | AClear t => V t | _ => False end.
(** The signals of [V] exist. *)
Definition alive (V : nat -> Prop) (S : astate) : Prop := forall t, V t -> exists p, nth_error S t = Some (Some p).
Lemma alive_valid V S s : alive V S -> V s -> exists L P, nth_error S s = Some (Some (L, P)).
Proof. intros H Hs. destruct (H s Hs) as ([L P] & E). eauto. Qed.
Lemma alive_upd V S s p : alive V S -> alive V (upd S s (Some p)).
Proof. intros H t Ht. destruct (H t Ht) as (q & E). rewrite nth_error_upd. destruct (_ && _); eauto. Qed.
Lemma effect_alive V h S a evs S' h' : effect h S a evs S' h' -> alive V S -> alive V S' /\ length S' = length S.
Proof. intros E H. destruct E; split; auto; try (rewrite upd_length; reflexivity); now apply alive_upd. Qed.

Lemma effect_shrinks h S a evs S' h' s L P n : effect h S a evs S' h' -> only_removes n a -> nth_error S s = Some (Some (L, P)) -> h' = h /\ exists L' P', nth_error S' s = Some (Some (L', P')) /\ length (skipn P' L') <= length (skipn P L) /\ P' <= Nat.max P 1.
Proof.
  intros E HO ES. assert (Hs : s < length S) by (apply nth_error_Some; congruence). destruct E as [id NI|s0 L0 P0 j id E0 EJ|s0 L0 P0 E0|s0 L0 P0 E0]; try contradiction; (split; [reflexivity|]).
  - exists L, P. repeat split; auto; lia.
  - rewrite nth_error_upd. destruct (Nat.eqb_spec s s0) as [<-|D]; [|exists L, P; repeat split; auto; lia]. rewrite ES in E0. injection E0 as <- <-. replace (s <? length S) with true by lia. cbn [andb]. destruct (a_remove L P j) as [L' P'] eqn:ER. exists L', P'. split; [reflexivity|]. destruct (Nat.lt_ge_cases j P) as [JP|JP].
    + pose proof (remove_called L P j id EJ JP) as RC. rewrite ER in RC. destruct RC as (_ & R2 & R3). rewrite (Permutation_length R2). lia.
    + destruct (remove_later L P j id EJ JP) as (RE & _ & R2). rewrite ER in RE. injection RE as -> ->. rewrite <- (Permutation_length R2). cbn [length]. lia.
  - rewrite nth_error_upd. destruct (Nat.eqb_spec s s0) as [<-|D]; [|exists L, P; repeat split; auto; lia]. replace (s <? length S) with true by lia. cbn [andb]. exists [], 1. cbn. repeat split; lia.
Qed.

Lemma perform_removes V emit s acts : forall w S L P, Forall (only_removes V) acts -> ginv w S -> bounded w -> alive V S -> nth_error S s = Some (Some (L, P)) ->
  exists w' S' L' P', perform emit acts w = Done w' /\ ginv w' S' /\ alive V S' /\ length S' = length S /\ length (heap w') = length (heap w) /\ nth_error S' s = Some (Some (L', P')) /\ length (skipn P' L') <= length (skipn P L) /\ P' <= Nat.max P 1.
Proof.
  induction acts as [|a r IH]; intros w S L P HF G HB HA ES; cbn [perform].
  - exists w, S, L, P. repeat split; auto; try apply G; lia.
  - inversion HF as [|? ? HO HR]; subst. assert (HV : valid S a) by (destruct a; cbn in *; try contradiction; [exact I | destruct (alive_valid V S _ HA HO) as (L0 & P0 & E0); eauto]).
    destruct (step_ginv w S a G HB HV) as (w1 & evs & S1 & E1 & EF & G1 & T1). destruct (effect_alive V _ _ _ _ _ _ EF HA) as (HA1 & HL1). destruct (effect_shrinks _ _ _ _ _ _ s L P _ EF HO ES) as (HH1 & L1 & P1 & ES1 & SH1 & PM1).
    assert (E1' : (match a with AEmit t => emit w t | _ => simple_action w a end) = Done w1) by (destruct a; try exact E1; contradiction). rewrite E1'. cbn [bind].
    destruct (IH w1 S1 L1 P1) as (w2 & S2 & L2 & P2 & E2 & G2 & HA2 & HL2 & HH2 & ES2 & SH2 & PM2); auto; [unfold bounded in *; rewrite HH1; exact HB |].
    exists w2, S2, L2, P2. split; [exact E2|]. repeat split; auto; try apply G2; lia.
Qed.

Lemma loop_ends V beh s : forall fuel w S L P, (forall tr id, Forall (only_removes V) (beh tr id)) -> ginv w S -> bounded w -> alive V S -> nth_error S s = Some (Some (L, P)) -> 1 <= P -> length (skipn (P - 1) L) < fuel ->
  exists w', emit_loop beh fuel w s = Done w' /\ length (heap w') = length (heap w).
Proof.
  induction fuel as [|fuel IH]; intros w S L P HBEH G HB HA ES HP HF; [lia|]. cbn [emit_loop]. destruct (loop_head s w S L P (proj1 G) ES HP) as (x & EX & EC & EA). rewrite EX. cbn [bind]. rewrite EC. destruct (Nat.leb_spec P (length L)) as [LP|LP].
  - rewrite (EA LP). cbn [bind]. set (id := nth (P - 1) L 0). pose proof (slots_size _ _ _ _ _ (proj1 (proj2 (proj1 G))) ES) as HN.
    destruct (perform_removes V (fun w t => w1 <- set_iterator w t (fun _ => 0%N) ;; emit_loop beh fuel w1 t) s (beh (trace (log w (ECall id))) id) (log w (ECall id)) S L P (HBEH _ _) (log_call w S id G) HB HA ES) as (w1 & S1 & L1 & P1 & E1 & G1 & HA1 & HL1 & HH1 & ES1 & SH1 & PM1).
    rewrite E1. cbn [bind]. assert (HH1' : length (heap w1) = length (heap w)) by exact HH1. assert (BI : inc (it_of P1) = it_of (P1 + 1)) by (apply inc_it; unfold bounded in HB; lia).
    destruct G1 as (R1 & GC1). destruct (set_iterator_rep w1 S1 s L1 P1 inc (P1 + 1) R1 ES1 BI) as (w2 & E2 & R2 & HH2 & T2). rewrite E2. cbn [bind]. assert (Hs1 : s < length S1) by (apply nth_error_Some; congruence).
    destruct (IH w2 (upd S1 s (Some (L1, P1 + 1))) L1 (P1 + 1)) as (w' & E' & HH'); auto.
    + split; [exact R2|]. intros i Li Pi Ei. rewrite T2. rewrite nth_error_upd in Ei. destruct (Nat.eqb_spec i s) as [->|D]; [|exact (GC1 _ _ _ Ei)]. replace (s <? length S1) with true in Ei by lia. cbn [andb] in Ei. injection Ei as <- <-. exact (GC1 _ _ _ ES1).
    + unfold bounded. now rewrite HH2, HH1'.
    + now apply alive_upd.
    + rewrite nth_error_upd, Nat.eqb_refl. now replace (s <? length S1) with true by lia.
    + lia.
    + rewrite Nat.add_sub. rewrite !skipn_length in *. lia.
    + exists w'. split; [exact E'|]. now rewrite HH', HH2.
  - eexists. split; reflexivity.
Qed.

Lemma removes_good n s id acts : Forall (only_removes n) acts -> Forall noemit acts /\ good s id acts.
Proof.
  intros H. split; [apply (Forall_impl _ (P := only_removes n)); [intros [| | |]; cbn; tauto | exact H]|]. intros a b -> _. apply Forall_app in H. destruct H as (_ & H). inversion H. contradiction.
Qed.
Lemma emit_removes V beh fuel w S s : ginv w S -> bounded w -> alive V S -> V s -> (forall tr id, Forall (only_removes V) (beh tr id)) -> length (connected (trace w) s) < fuel ->
  exists w' S' t, emit beh fuel w s = Done w' /\ ginv w' S' /\ trace w' = trace w ++ t /\ emission_ok s (trace w) t /\ bounded w'.
Proof.
  intros G HB HA Hs HBEH HF. destruct (alive_valid V S s HA Hs) as (L & P & ES). assert (Hl : s < length S) by (apply nth_error_Some; congruence). destruct (restart w S s L P G ES) as (w1 & E1 & G1 & HH & T1).
  assert (ES1 : nth_error (upd S s (Some (L, 1))) s = Some (Some (L, 1))) by (rewrite nth_error_upd, Nat.eqb_refl; now replace (s <? length S) with true by lia).
  destruct (loop_ends V beh s fuel w1 _ L 1 HBEH G1 ltac:(unfold bounded in *; rewrite HH; exact HB) ltac:(now apply alive_upd) ES1 ltac:(lia)) as (w' & E' & HH').
  { cbn [Nat.sub skipn]. now rewrite (Permutation_length (proj2 G _ _ _ ES)). }
  assert (EE : emit beh fuel w s = Done w') by (unfold emit; rewrite E1; exact E').
  destruct (emit_inv beh fuel w S s w' G ltac:(intros tr id; exact (removes_good _ s id _ (HBEH tr id))) EE ltac:(unfold bounded in *; rewrite HH', HH; exact HB)) as (S' & t & G' & T' & OK). exists w', S', t. repeat (split; [assumption|]). unfold bounded in *. now rewrite HH', HH.
Qed.
