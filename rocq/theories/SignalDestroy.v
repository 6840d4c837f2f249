(** Emissions that destroy signals, against emissions that clear them. *)
From Coq Require Import Permutation.
From Verif Require Import CellModel VectorModel PoolProofs SignalSpec SignalModel SignalProofs SignalEmit SignalHistory SignalDestroyModel.
Open Scope nat_scope.

Definition cleared (x : xaction) : action := match x with XAct a => a | XDestroy s => AClear s | XMove s => AClear s end.
Definition nomove (x : xaction) : Prop := match x with XMove _ => False | _ => True end.
Definition holds (x : sigobj) (id : nat) : bool := existsb (cell_holds id) (m_data (m_slots x)) || existsb (value_holds id) (fallback (m_slots x)).
(** Signals [D] are destroyed on the left, empty on the right. *)
Record sim (D : nat -> Prop) (w v : world) : Prop := Sim {
  sim_in : forall s, D s -> nth_error (sigs w) s = Some None /\ exists x, nth_error (sigs v) s = Some (Some x) /\ forall id, holds x id = false;
  sim_out : forall s, ~ D s -> nth_error (sigs w) s = nth_error (sigs v) s;
  sim_dec : forall s, D s \/ ~ D s;
  sim_heap : heap w = heap v;
  sim_trace : trace w = trace v;
  sim_leaked : forall id, existsb (cell_holds id) (leaked w) = existsb (cell_holds id) (leaked v);
  sim_raw : Forall (fun c => c = Raw) (leaked w) }.

Lemma sig_at_nth w s x : sig_at w s = Done x <-> nth_error (sigs w) s = Some (Some x).
Proof. unfold sig_at, vget. destruct (nth_error (sigs w) s) as [[y|]|]; cbn [bind]; split; intros E; try discriminate; congruence. Qed.
Lemma sim_at D w v s x : sim D w v -> sig_at w s = Done x -> ~ D s /\ sig_at v s = Done x.
Proof.
  intros H E. apply sig_at_nth in E. destruct (sim_dec _ _ _ H s) as [K|K]; [destruct (sim_in _ _ _ H s K) as (F & _); congruence|]. split; [exact K|]. apply sig_at_nth. now rewrite <- (sim_out _ _ _ H s K).
Qed.
Lemma sim_put D w v s x w' : sim D w v -> ~ D s -> sig_put w s x = Done w' -> exists v', sig_put v s x = Done v' /\ sim D w' v'.
Proof.
  intros H K E. unfold sig_put, vset in *. pose proof (sim_out _ _ _ H s K) as O.
  assert (LT : s < length (sigs w) <-> s < length (sigs v)) by (rewrite <- !nth_error_Some, O; reflexivity).
  destruct (s <? length (sigs w)) eqn:L; [|discriminate]. apply Nat.ltb_lt in L. cbn [bind] in E. injection E as <-. rewrite (proj2 (Nat.ltb_lt s (length (sigs v)))) by tauto. cbn [bind]. eexists. split; [reflexivity|].
  split; cbn [sigs heap trace leaked].
  - intros t T. rewrite !nth_error_upd. destruct (Nat.eqb_spec t s) as [->|]; [contradiction|]. exact (sim_in _ _ _ H t T).
  - intros t T. rewrite !nth_error_upd. destruct (Nat.eqb_spec t s) as [->|]; [|exact (sim_out _ _ _ H t T)]. rewrite (proj2 (Nat.ltb_lt s (length (sigs w)))), (proj2 (Nat.ltb_lt s (length (sigs v)))) by tauto. reflexivity.
  - exact (sim_dec _ _ _ H).
  - exact (sim_heap _ _ _ H).
  - exact (sim_trace _ _ _ H).
  - exact (sim_leaked _ _ _ H).
  - exact (sim_raw _ _ _ H).
Qed.
Lemma sim_log D w v e : sim D w v -> sim D (log w e) (log v e).
Proof. intros H. split; cbn [log sigs heap trace leaked]; try apply H. now rewrite (sim_trace _ _ _ H). Qed.
Lemma sim_with D w v h : sim D w v -> sim D (W (sigs w) h (leaked w) (trace w)) (W (sigs v) h (leaked v) (trace v)).
Proof. intros H. split; cbn [sigs heap trace leaked]; try apply H. reflexivity. Qed.
Lemma sim_set_slot D w v o f w' : sim D w v -> set_slot w o f = Done w' -> exists v', set_slot v o f = Done v' /\ sim D w' v'.
Proof.
  intros H E. destruct o as [id|]; [|discriminate]. cbn [set_slot] in *. rewrite <- (sim_heap _ _ _ H). apply bind_inv in E. destruct E as (x & -> & E). cbn [bind]. apply bind_inv in E. destruct E as (h & -> & E). cbn [bind]. injection E as <-. eexists. split; [reflexivity|]. now apply sim_with.
Qed.
Lemma existsb_pointwise {A} (f g : A -> bool) : forall l l', length l = length l' -> (forall k a b, nth_error l k = Some a -> nth_error l' k = Some b -> f a = g b) -> existsb f l = existsb g l'.
Proof.
  induction l as [|a l IH]; intros [|b l'] L H; try discriminate; [reflexivity|]. cbn [existsb]. f_equal; [now apply (H 0)|]. apply IH; [now injection L|]. intros k x y X Y. now apply (H (S k)).
Qed.
Lemma sim_owned D w v id : sim D w v -> owned w id = owned v id.
Proof.
  intros H. unfold owned. rewrite (sim_leaked _ _ _ H id). f_equal.
  assert (L : forall k, nth_error (sigs w) k = None <-> nth_error (sigs v) k = None).
  { intros k. destruct (sim_dec _ _ _ H k) as [K|K]; [destruct (sim_in _ _ _ H k K) as (-> & x & -> & _); split; discriminate|now rewrite (sim_out _ _ _ H k K)]. }
  apply existsb_pointwise.
  - apply Nat.le_antisymm; apply nth_error_None; apply L; now apply nth_error_None.
  - intros k a b A B. destruct (sim_dec _ _ _ H k) as [K|K]; [|rewrite (sim_out _ _ _ H k K) in A; rewrite A in B; now injection B as <-].
    destruct (sim_in _ _ _ H k K) as (A' & x & B' & Q). rewrite A' in A. rewrite B' in B. injection A as <-. injection B as <-. symmetry. exact (Q id).
Qed.
Lemma sim_iterator D w v s f w' : sim D w v -> set_iterator w s f = Done w' -> exists v', set_iterator v s f = Done v' /\ sim D w' v'.
Proof. intros H E. unfold set_iterator in *. apply bind_inv in E. destruct E as (x & A & E). destruct (sim_at D w v s x H A) as (K & ->). cbn [bind]. exact (sim_put D w v s _ w' H K E). Qed.
Ltac step H :=
  match type of H with
  | bind (assert ?c) _ = Done _ => destruct c eqn:?; cbn [assert bind] in H |- *; [|discriminate H]
  | bind ?e _ = Done _ => let a := fresh "a" in let E := fresh "E" in apply bind_inv in H; destruct H as (a & E & H)
  end.
Ltac sims D K :=
  repeat (cbn [assert bind] in *;
    match goal with
    | E : bind (assert ?c) _ = Done _ |- _ => destruct c eqn:?; cbn [assert bind] in *; [|discriminate E]
    | H : sim D ?w ?v, E : bind (set_slot ?w ?o ?f) _ = Done _ |- _ =>
      let E1 := fresh "E" in let H1 := fresh "H" in apply bind_inv in E; destruct E as (? & E1 & E); destruct (sim_set_slot D w v _ _ _ H E1) as (? & -> & H1); clear H E1
    | H : sim D ?w ?v, E : bind (sig_put ?w ?o ?f) _ = Done _ |- _ =>
      let E1 := fresh "E" in let H1 := fresh "H" in apply bind_inv in E; destruct E as (? & E1 & E); destruct (sim_put D w v _ _ _ H K E1) as (? & -> & H1); clear H E1
    | E : bind ?e _ = Done _ |- _ => let E1 := fresh "E" in apply bind_inv in E; destruct E as (? & E1 & E); rewrite E1
    end).
Lemma sim_disconnect D w v s id w' : sim D w v -> sig_disconnect w s id = Done w' -> exists v', sig_disconnect v s id = Done v' /\ sim D w' v'.
Proof.
  intros H E. unfold sig_disconnect in *. step E. destruct (sim_at D w v s a H E0) as (K & ->). cbn [bind]. rewrite <- (sim_heap _ _ _ H). step E. rewrite E1. clear E0 E1. sims D K. match type of E with (if ?c then _ else _) = _ => destruct c end; sims D K; injection E as <-; eexists; (split; [reflexivity|]); now apply sim_log.
Qed.
Lemma sim_connect D w v s w' id : sim D w v -> sig_connect w s = Done (w', id) -> exists v', sig_connect v s = Done (v', id) /\ sim D w' v'.
Proof.
  intros H E. unfold sig_connect in *. step E. destruct (sim_at D w v s a H E0) as (K & ->). cbn [bind]. rewrite <- (sim_heap _ _ _ H). step E. rewrite E1. cbn [bind]. destruct a0 as [u b]. step E. rewrite E2. cbn [bind]. step E.
  destruct (sim_put D _ _ s _ _ (sim_with D w v _ H) K E3) as (v1 & -> & H1). cbn [bind]. destruct a0 as [k|]; [|discriminate]. injection E as <- <-. eexists. split; [reflexivity|]. now apply sim_log.
Qed.
Lemma sim_clear D w v s w' : sim D w v -> sig_clear w s = Done w' -> exists v', sig_clear v s = Done v' /\ sim D w' v'.
Proof.
  intros H E. unfold sig_clear in *. step E. destruct (sim_at D w v s a H E0) as (K & ->). cbn [bind]. step E. rewrite E1. cbn [bind]. step E. destruct (sim_put D _ _ s _ _ H K E2) as (v1 & -> & H1). cbn [bind]. injection E as <-. eexists. split; [reflexivity|]. now apply sim_log.
Qed.
Lemma sim_simple D w v a w' : sim D w v -> simple_action w a = Done w' -> exists v', simple_action v a = Done v' /\ sim D w' v'.
Proof.
  intros H E. destruct a as [c|s|s|s]; cbn [simple_action] in *.
  - unfold conn_disconnect, lock in *. rewrite <- (sim_owned D w v c H). destruct (owned w c); [|injection E as <-; eauto]. rewrite <- (sim_heap _ _ _ H). step E. rewrite E0. cbn [bind]. exact (sim_disconnect D w v _ c w' H E).
  - step E. destruct a as [w1 id]. destruct (sim_connect D w v s w1 id H E0) as (v1 & -> & H1). injection E as <-. cbn [bind]. eauto.
  - exact (sim_clear D w v s w' H E).
  - injection E as <-. eauto.
Qed.
(** Destroying on one side, clearing on the other. *)
Lemma sim_destroy D w v S s w' : sim D w v -> ginv v S -> sig_destroy w s = Done w' -> exists v', sig_clear v s = Done v' /\ sim (fun t => D t \/ t = s) w' v'.
Proof.
  intros H (G & _) E. unfold sig_destroy in E. step E. destruct (sim_at D w v s a H E0) as (K & A). pose proof (proj1 (sig_at_nth v s a) A) as NV. destruct (sig_at_alive v S s a G A) as ((L & P) & ES).
  destruct (rep_sig v S s L P G ES) as (x & X & HV & _). rewrite A in X. injection X as <-. destruct (hv_clear _ _ HV) as (u & C & U). unfold fv_destroy in E. rewrite C in E. cbn [bind] in E. step E. injection E as <-.
  unfold sig_clear. rewrite A. cbn [bind]. rewrite C. cbn [bind]. unfold sig_put, vset in *. pose proof (proj1 (sig_at_nth w s a) E0) as NW. assert (LW : s < length (sigs w)) by (apply nth_error_Some; congruence). assert (LV : s < length (sigs v)) by (apply nth_error_Some; congruence).
  rewrite (proj2 (Nat.ltb_lt _ _) LW) in E1. injection E1 as <-. rewrite (proj2 (Nat.ltb_lt _ _) LV). cbn [bind]. eexists. split; [reflexivity|].
  assert (HO : forall id, holds (Sig u 0%N) id = false) by (intros id; unfold holds; cbn [m_slots]; now rewrite (hv_owns u [] id U)).
  split; cbn [log sigs heap trace leaked].
  - intros t T. rewrite !nth_error_upd. destruct (Nat.eqb_spec t s) as [->|N].
    + rewrite (proj2 (Nat.ltb_lt _ _) LW), (proj2 (Nat.ltb_lt _ _) LV). cbn [andb]. split; [reflexivity|]. eauto.
    + cbn [andb]. destruct T as [T|T]; [exact (sim_in _ _ _ H t T)|contradiction].
  - intros t T. rewrite !nth_error_upd. destruct (Nat.eqb_spec t s) as [->|N]; [tauto|]. cbn [andb]. apply (sim_out _ _ _ H). tauto.
  - intros t. destruct (sim_dec _ _ _ H t); [tauto|]. destruct (Nat.eq_dec t s); tauto.
  - exact (sim_heap _ _ _ H).
  - now rewrite (sim_trace _ _ _ H).
  - intros id. rewrite existsb_app, (sim_leaked _ _ _ H id). specialize (HO id). unfold holds in HO. cbn [m_slots] in HO. apply orb_false_iff in HO. destruct HO as (-> & _). apply orb_false_r.
  - apply Forall_app. split; [exact (sim_raw _ _ _ H)|]. destruct (hv_destroy _ _ HV) as (m & M & FM). unfold fv_destroy in M. rewrite C in M. injection M as <-. exact FM.
Qed.

(** *** The heap only grows *)
Lemma xperform_heap emit acts : (forall w t w', emit w t = Done w' -> length (heap w) <= length (heap w')) -> Forall nomove acts -> forall w w', xperform emit acts w = Done w' -> length (heap w) <= length (heap w').
Proof.
  intros HM N. induction N as [|x r X N IH]; intros w w' E; cbn [xperform] in E; [injection E as <-; lia|]. apply bind_inv in E. destruct E as (w1 & E1 & E). specialize (IH w1 w' E). destruct x as [a|s|s]; [| |contradiction].
  - enough (length (heap w) <= length (heap w1)) by lia. destruct a; try exact (simple_heap _ _ _ E1). exact (HM _ _ _ E1).
  - unfold sig_destroy in E1. step E1. step E1. step E1. injection E1 as <-. cbn [log heap] in IH. exact IH.
Qed.
Lemma xloop_heap beh fuel : (forall tr id, Forall nomove (beh tr id)) -> forall w s w', xemit_loop beh fuel w s = Done w' -> length (heap w) <= length (heap w').
Proof.
  intros N. induction fuel as [|fuel IH]; intros w s w' E; cbn [xemit_loop] in E; [discriminate|]. step E. destruct (_ <? _)%N; [|injection E as <-; lia]. step E. destruct a0 as [id|]; [|discriminate]. step E. step E.
  apply IH in E. rewrite (set_iterator_heap _ _ _ _ E3) in E. apply xperform_heap in E2; [cbn [log heap] in E2; lia| |apply N]. intros w1 t w2 K. apply bind_inv in K. destruct K as (w3 & K1 & K). apply IH in K. now rewrite (set_iterator_heap _ _ _ _ K1) in K.
Qed.

(** *** The simulation *)
Lemma xperform_sim emit emit2 acts : (forall w t w', emit w t = Done w' -> length (heap w) <= length (heap w')) ->
  (forall D w v S t w', sim D w v -> ginv v S -> emit w t = Done w' -> bounded w' -> exists D' v' S', emit2 v t = Done v' /\ sim D' w' v' /\ ginv v' S') ->
  Forall nomove acts -> forall D w v S w', sim D w v -> ginv v S -> xperform emit acts w = Done w' -> bounded w' -> exists D' v' S', perform emit2 (map cleared acts) v = Done v' /\ sim D' w' v' /\ ginv v' S'.
Proof.
  intros HM HE N. induction N as [|x r X N IH]; intros D w v S w' H G E B; cbn [xperform map perform] in *; [injection E as <-; eauto 6|]. apply bind_inv in E. destruct E as (w1 & E1 & E).
  assert (B1 : bounded w1) by (apply (bounded_le w1 w' B); exact (xperform_heap emit r HM N _ _ E)).
  assert (K : exists D1 v1 S1, (match cleared x with AEmit t => emit2 v t | _ => simple_action v (cleared x) end) = Done v1 /\ sim D1 w1 v1 /\ ginv v1 S1).
  { destruct x as [a|s|s]; [| |contradiction]; cbn [cleared].
    - destruct a as [c|s|s|s]; [| | |exact (HE D w v S s w1 H G E1 B1)].
      all: destruct (sim_simple D w v _ w1 H E1) as (v1 & F & H1); match type of F with simple_action _ ?a = _ => assert (NE : noemit a) by exact Logic.I end; assert (BV : bounded v1) by (unfold bounded in *; rewrite <- (sim_heap _ _ _ H1); exact B1); destruct (simple_ginv v S _ v1 G NE F BV) as (S1 & G1); eauto 8.
    - destruct (sim_destroy D w v S s w1 H G E1) as (v1 & F & H1). assert (BV : bounded v1) by (unfold bounded in *; rewrite <- (sim_heap _ _ _ H1); exact B1). destruct (simple_ginv v S (AClear s) v1 G Logic.I F BV) as (S1 & G1). eauto 8. }
  destruct K as (D1 & v1 & S1 & F & H1 & G1). rewrite F. cbn [bind]. exact (IH D1 w1 v1 S1 w' H1 G1 E B).
Qed.
Lemma xloop_sim beh fuel : (forall tr id, Forall nomove (beh tr id)) -> forall D w v S s w', sim D w v -> ginv v S -> xemit_loop beh fuel w s = Done w' -> bounded w' ->
  exists D' v' S', emit_loop (fun tr id => map cleared (beh tr id)) fuel v s = Done v' /\ sim D' w' v' /\ ginv v' S'.
Proof.
  intros N. induction fuel as [|fuel IH]; intros D w v S s w' H G E B; cbn [xemit_loop emit_loop] in *; [discriminate|]. step E. destruct (sim_at D w v s a H E0) as (K & ->). cbn [bind]. destruct (_ <? _)%N; [|injection E as <-; eauto 6]. step E. rewrite E1. cbn [bind]. destruct a0 as [id|]; [|discriminate]. step E. step E.
  pose proof (xloop_heap beh fuel N _ _ _ E) as M1. rewrite (set_iterator_heap _ _ _ _ E3) in M1. assert (B0 : bounded a0) by (apply (bounded_le a0 w' B); lia).
  match type of E2 with xperform ?e _ _ = _ => set (em := e) in E2 end. set (em2 := fun w t => w <- set_iterator w t (fun _ => 0%N) ;; emit_loop (fun tr id => map cleared (beh tr id)) fuel w t).
  assert (HM : forall w1 t w2, em w1 t = Done w2 -> length (heap w1) <= length (heap w2)) by (intros w1 t w2 Q; unfold em in Q; apply bind_inv in Q; destruct Q as (w3 & Q1 & Q); apply (xloop_heap beh fuel N) in Q; now rewrite (set_iterator_heap _ _ _ _ Q1) in Q).
  assert (HE : forall D w v S t w', sim D w v -> ginv v S -> em w t = Done w' -> bounded w' -> exists D' v' S', em2 v t = Done v' /\ sim D' w' v' /\ ginv v' S').
  { intros D1 w1 v1 S1 t w2 H1 G1 Q BQ. unfold em in Q. apply bind_inv in Q. destruct Q as (w3 & Q1 & Q). destruct (sim_iterator D1 w1 v1 t _ w3 H1 Q1) as (v3 & F & H3). unfold em2. rewrite F. cbn [bind]. destruct (set_iterator_ginv v1 S1 t _ v3 G1 F) as (S3 & G3). exact (IH D1 w3 v3 S3 t w2 H3 G3 Q BQ). }
  destruct (xperform_sim em em2 _ HM HE (N _ _) D _ _ S a0 (sim_log D w v (ECall id) H) (log_call v S id G) E2 B0) as (D1 & v1 & S1 & F & H1 & G1).
  assert (TR : trace (log v (ECall id)) = trace (log w (ECall id))) by (cbn [log trace]; now rewrite (sim_trace _ _ _ H)). rewrite TR. fold em2. rewrite F. cbn [bind]. destruct (sim_iterator D1 a0 v1 s inc a1 H1 E3) as (v3 & F3 & H3). rewrite F3. cbn [bind]. destruct (set_iterator_ginv v1 S1 s _ v3 G1 F3) as (S3 & G3). exact (IH D1 a1 v3 S3 s w' H3 G3 E B).
Qed.
Lemma sim_refl w S : wrep w S -> sim (fun _ => False) w w.
Proof. intros (_ & _ & R). split; intros; auto; contradiction. Qed.

(** *** What holds of the signals afterwards *)
Fixpoint restrict (l : list (option sigobj)) (S : astate) : astate :=
  match l, S with o :: l, a :: T => (match o with Some _ => a | None => None end) :: restrict l T | _, _ => [] end.
Lemma restrict_nth : forall l S, length l = length S -> forall i, nth_error (restrict l S) i = match nth_error l i with Some (Some _) => nth_error S i | Some None => Some None | None => None end.
Proof.
  induction l as [|o l IH]; intros [|a T] L i; try discriminate; [now destruct i|]. destruct i as [|i]; cbn [restrict nth_error]; [destruct o; reflexivity|]. apply IH. now injection L.
Qed.
Lemma sim_length D w v : sim D w v -> length (sigs w) = length (sigs v).
Proof.
  intros H. assert (L : forall k, nth_error (sigs w) k = None <-> nth_error (sigs v) k = None).
  { intros k. destruct (sim_dec _ _ _ H k) as [K|K]; [destruct (sim_in _ _ _ H k K) as (-> & x & -> & _); split; discriminate|now rewrite (sim_out _ _ _ H k K)]. }
  apply Nat.le_antisymm; apply nth_error_None; apply L; now apply nth_error_None.
Qed.
Lemma Forall2_of_nth {A B} (R : A -> B -> Prop) : forall l l', length l = length l' -> (forall k a b, nth_error l k = Some a -> nth_error l' k = Some b -> R a b) -> Forall2 R l l'.
Proof.
  induction l as [|a l IH]; intros [|b l'] L H; try discriminate; constructor; [now apply (H 0)|]. apply IH; [now injection L|]. intros k x y X Y. now apply (H (S k)).
Qed.
Lemma sim_lives D w v s : sim D w v -> lives w s -> ~ D s /\ nth_error (sigs w) s = nth_error (sigs v) s.
Proof. intros H (x & E). destruct (sim_dec _ _ _ H s) as [K|K]; [destruct (sim_in _ _ _ H s K) as (F & _); congruence|]. split; [exact K|]. exact (sim_out _ _ _ H s K). Qed.
Lemma sim_keeps D w v : sim D w v -> keeps v -> keeps w.
Proof.
  intros H ((S & (F & HI & _) & G) & V). assert (LS : length (sigs v) = length S) by (clear -F; induction F; cbn [length]; congruence). assert (LR : length (sigs w) = length S) by (rewrite (sim_length D w v H); exact LS).
  assert (RE : forall i a, nth_error (restrict (sigs w) S) i = Some (Some a) -> nth_error S i = Some (Some a)).
  { intros i a. rewrite (restrict_nth _ _ LR). destruct (nth_error (sigs w) i) as [[x|]|]; [auto|discriminate|discriminate]. }
  split.
  - exists (restrict (sigs w) S). split; [split; [|split; [|exact (sim_raw _ _ _ H)]]|].
    + apply Forall2_of_nth.
      * apply Nat.le_antisymm; apply nth_error_None; [|rewrite (restrict_nth _ _ LR), (proj2 (nth_error_None (sigs w) _) (Nat.le_refl _)); reflexivity].
        assert (N : nth_error (restrict (sigs w) S) (length (restrict (sigs w) S)) = None) by (apply nth_error_None; lia). rewrite (restrict_nth _ _ LR) in N. destruct (nth_error (sigs w) (length (restrict (sigs w) S))) as [[x|]|] eqn:E; [|discriminate|reflexivity].
        apply nth_error_None in N. rewrite <- LR in N. apply nth_error_None in N. congruence.
      * intros k a b A B. rewrite (restrict_nth _ _ LR), A in B. destruct a as [x|]; [|injection B as <-; exact I]. destruct (sim_lives D w v k H) as (_ & O); [exists x; exact A|]. rewrite A in O. symmetry in O. destruct (Forall2_nth _ _ _ _ _ F B) as (y & Y & R). rewrite O in Y. injection Y as <-. exact R.
    + intros i L P k id E K. rewrite (sim_heap _ _ _ H). exact (HI _ _ _ _ _ (RE _ _ E) K).
    + intros i L P E. rewrite (sim_trace _ _ _ H). exact (G _ _ _ (RE _ _ E)).
  - intros s NL. rewrite (sim_trace _ _ _ H). destruct (sim_dec _ _ _ H s) as [K|K].
    + destruct (sim_in _ _ _ H s K) as (_ & x & X & Q). assert (LV : s < length S) by (rewrite <- LS; apply nth_error_Some; congruence). destruct (nth_error S s) as [a|] eqn:ES; [|apply nth_error_None in ES; lia].
      destruct (Forall2_nth _ _ _ _ _ F ES) as (y & Y & R). rewrite X in Y. injection Y as <-. destruct a as [[L P]|]; [|contradiction]. destruct R as (HV & _). specialize (G _ _ _ ES). destruct L as [|id L]; [now apply Permutation_nil|].
      specialize (Q id). unfold holds in Q. rewrite (hv_owns _ _ id HV) in Q. cbn [map existsb value_holds] in Q. rewrite Nat.eqb_refl in Q. discriminate.
    + apply V. intros (x & X). apply NL. exists x. rewrite (sim_out _ _ _ H s K). exact X.
Qed.
Lemma xemit_sim beh fuel w s w' : (forall tr id, Forall nomove (beh tr id)) -> keeps w -> xemit beh fuel w s = Done w' -> bounded w' ->
  exists D v', emit (fun tr id => map cleared (beh tr id)) fuel w s = Done v' /\ sim D w' v' /\ keeps v'.
Proof.
  intros N ((S & G) & V) E B. unfold xemit, emit in *. apply bind_inv in E. destruct E as (w1 & E1 & E). rewrite E1. cbn [bind]. destruct (set_iterator_ginv w S s _ w1 G E1) as (S1 & G1). destruct (set_iterator_vacant w s _ w1 V E1) as (V1 & _).
  destruct (xloop_sim beh fuel N (fun _ => False) w1 w1 S1 s w' (sim_refl w1 S1 (proj1 G1)) G1 E B) as (D & v & S' & F & H & G'). exists D, v. split; [exact F|]. split; [exact H|]. split; [eauto|]. exact (proj1 (loop_vacant _ _ _ _ _ V1 F)).
Qed.
Lemma xemit_keeps beh fuel w s w' : (forall tr id, Forall nomove (beh tr id)) -> keeps w -> xemit beh fuel w s = Done w' -> bounded w' -> keeps w'.
Proof. intros N K E B. destruct (xemit_sim beh fuel w s w' N K E B) as (D & v & _ & H & KV). exact (sim_keeps D w' v H KV). Qed.

(** *** A destroyed signal stays destroyed *)
Definition after (w w' : world) : Prop := forall s, lives w' s -> lives w s.
Lemma after_same w w' : same_lives w w' -> after w w'.
Proof. intros H s. apply H. Qed.
Lemma simple_after w a w' : simple_action w a = Done w' -> after w w'.
Proof.
  intros E. destruct a as [c|s|s|s]; cbn [simple_action] in E.
  - unfold conn_disconnect, lock in E. destruct (owned w c); [|injection E as <-; now intros ?]. step E. apply after_same. exact (proj1 (disconnect_lives _ _ _ _ E)).
  - step E. destruct a as [w1 id]. injection E as <-. apply after_same. exact (proj1 (proj2 (connect_lives _ _ _ _ E0))).
  - apply after_same. exact (proj1 (clear_lives _ _ _ E)).
  - injection E as <-. now intros ?.
Qed.
Lemma iterator_after w s f w' : set_iterator w s f = Done w' -> after w w' /\ lives w s /\ lives w' s.
Proof. intros E. unfold set_iterator in E. step E. pose proof (lives_at _ _ _ E0) as L. destruct (put_lives _ _ _ _ L E) as (SL & _). split; [now apply after_same|]. split; [exact L|now apply SL]. Qed.
Lemma destroy_after w s w' : sig_destroy w s = Done w' -> after w w' /\ ~ lives w' s.
Proof.
  intros E. unfold sig_destroy in E. step E. step E. step E. injection E as <-. pose proof (lives_at _ _ _ E0) as L. unfold vset in E2. destruct (s <? length (sigs w)) eqn:LS; [|discriminate]. injection E2 as <-.
  split; [intros t|]; intros (x & X); cbn [log sigs] in X; rewrite nth_error_upd in X.
  - destruct (Nat.eqb_spec t s) as [->|]; [exact L|]. exists x. exact X.
  - rewrite Nat.eqb_refl, LS in X. discriminate.
Qed.
Lemma xperform_after emit acts : (forall w t w', emit w t = Done w' -> after w w') -> Forall nomove acts -> forall w w', xperform emit acts w = Done w' -> after w w' /\ forall s, In (XDestroy s) acts -> ~ lives w' s.
Proof.
  intros HE N. induction N as [|x r X N IH]; intros w w' E; cbn [xperform] in E; [injection E as <-; split; [now intros ?|contradiction]|]. apply bind_inv in E. destruct E as (w1 & E1 & E). destruct (IH w1 w' E) as (A & D).
  assert (A1 : after w w1) by (destruct x as [a|s|s]; [destruct a; try exact (simple_after _ _ _ E1); exact (HE _ _ _ E1) | exact (proj1 (destroy_after _ _ _ E1)) | contradiction]).
  split; [intros s L; exact (A1 s (A s L))|]. intros s [-> | HI] L; [|exact (D s HI L)]. apply (proj2 (destroy_after _ _ _ E1)). exact (A s L).
Qed.
Lemma xloop_lives beh fuel : forall w s w', xemit_loop beh fuel w s = Done w' -> lives w' s.
Proof.
  induction fuel as [|fuel IH]; intros w s w' E; cbn [xemit_loop] in E; [discriminate|]. step E. destruct (_ <? _)%N; [|injection E as <-; exact (lives_at _ _ _ E0)]. step E. destruct a0 as [id|]; [|discriminate]. step E. step E. exact (IH _ _ _ E).
Qed.
Lemma xloop_after beh fuel : (forall tr id, Forall nomove (beh tr id)) -> forall w s w', xemit_loop beh fuel w s = Done w' -> after w w'.
Proof.
  intros N. induction fuel as [|fuel IH]; intros w s w' E; cbn [xemit_loop] in E; [discriminate|]. step E. destruct (_ <? _)%N; [|injection E as <-; now intros ?]. step E. destruct a0 as [id|]; [|discriminate]. step E. step E.
  apply xperform_after in E2; [|intros w1 t w2 K; apply bind_inv in K; destruct K as (w3 & K1 & K); intros u L; apply (proj1 (iterator_after _ _ _ _ K1)); exact (IH _ _ _ K u L)|apply N].
  intros u L. apply (proj1 E2). apply (proj1 (iterator_after _ _ _ _ E3)). exact (IH _ _ _ E u L).
Qed.
