(** Histories of guards: what is held is what is connected. *)
From Verif Require Import SignalSpec SignalModel SignalProofs SignalEmit SignalHistory GuardModel PropSignal.
Open Scope nat_scope.

(** What a program with guards means: each guard holds nothing or one slot of one signal (None: destroyed). *)
Definition holders := list (option (option (nat * nat))).
Definition alive (ss : holders) (g : nat) : option (option (nat * nat)) := match nth_error ss g with Some (Some c) => Some c | _ => None end.
Definition hstep (k : nat) (st : nat * holders) (o : gop) : option (nat * holders) :=
  let '(n, ss) := st in
  match o with
  | GNew => Some (n, ss ++ [Some None])
  | GConnect g s => match alive ss g with Some _ => if s <? k then Some (S n, upd ss g (Some (Some (n, s)))) else None | None => None end
  | GMoveNew g => match alive ss g with Some c => Some (n, upd ss g (Some None) ++ [Some c]) | None => None end
  | GMoveAssign g h => match alive ss g, alive ss h with Some _, Some d => Some (n, if g =? h then ss else upd (upd ss h (Some None)) g (Some d)) | _, _ => None end
  | GDisconnect g => match alive ss g with Some _ => Some (n, upd ss g (Some None)) | None => None end
  | GDestroy g => match alive ss g with Some _ => Some (n, upd ss g None) | None => None end
  | GClear s => if s <? k then Some (n, map (fun h => match h with Some (Some (_, t)) => if t =? s then Some None else h | _ => h end) ss) else None
  end.
Fixpoint hsteps (k : nat) (st : nat * holders) (ops : list gop) : option (nat * holders) :=
  match ops with [] => Some st | o :: ops => match hstep k st o with Some st => hsteps k st ops | None => None end end.

Definition agree (w : world) (a : option (option (option nat))) (b : option (option (option (nat * nat)))) : Prop :=
  match a, b with
  | None, None | Some None, Some None => True
  | Some (Some c), Some (Some h) =>
    (forall x, c = Some x -> x < length (heap w)) /\ match h with None => IsConnected w c = false | Some (id, _) => c = Some id end
  | _, _ => False
  end.
Definition held (ss : holders) (id s : nat) : Prop := exists g, nth_error ss g = Some (Some (Some (id, s))).
Record inv (k : nat) (w : world) (gs : guards) (n : nat) (ss : holders) : Prop := Inv {
  i_reached : reached w;
  i_heap : length (heap w) = n;
  i_lives : forall s, lives w s <-> s < k;
  i_agree : forall g, agree w (nth_error gs g) (nth_error ss g);
  i_conn : forall id s, In id (connected (trace w) s) <-> held ss id s;
  i_one : forall g h id s t, nth_error ss g = Some (Some (Some (id, s))) -> nth_error ss h = Some (Some (Some (id, t))) -> g = h
}.
Lemma agree_length w (gs : guards) (ss : holders) : (forall g, agree w (nth_error gs g) (nth_error ss g)) -> length gs = length ss.
Proof.
  intros A. apply Nat.le_antisymm; apply Nat.nlt_ge; intros L.
  - specialize (A (length ss)). rewrite (proj2 (nth_error_None ss _)) in A by lia. destruct (nth_error gs (length ss)) as [[]|] eqn:E; [destruct A.. | apply nth_error_None in E; lia].
  - specialize (A (length gs)). rewrite (proj2 (nth_error_None gs _)) in A by lia. destruct (nth_error ss (length gs)) as [[]|] eqn:E; [destruct A.. | apply nth_error_None in E; lia].
Qed.
Lemma guard_alive k w gs n ss g c : inv k w gs n ss -> alive ss g = Some c -> exists d, guard_at gs g = Done d /\ nth_error gs g = Some (Some d) /\ nth_error ss g = Some (Some c) /\ g < length gs /\ g < length ss.
Proof.
  intros I H. unfold alive in H. destruct (nth_error ss g) as [[x|]|] eqn:E; try discriminate. injection H as ->. pose proof (i_agree _ _ _ _ _ I g) as A. rewrite E in A. destruct (nth_error gs g) as [[d|]|] eqn:E2; try (destruct c as [[]|]; destruct A).
  - exists d. unfold guard_at, vget. rewrite E2. repeat split; apply nth_error_Some; congruence.
  - exists d. unfold guard_at, vget. rewrite E2. repeat split; apply nth_error_Some; congruence.
Qed.
Lemma guard_dead k w gs n ss g : inv k w gs n ss -> alive ss g = None -> guard_at gs g = Fault FUB.
Proof.
  intros I H. unfold alive in H. pose proof (i_agree _ _ _ _ _ I g) as A. unfold guard_at, vget. destruct (nth_error ss g) as [[x|]|], (nth_error gs g) as [[d|]|]; try discriminate; try destruct A; reflexivity.
Qed.
Lemma nup {A} (l : list A) i x k : i < length l -> nth_error (upd l i x) k = if k =? i then Some x else nth_error l k.
Proof. intros L. rewrite nth_error_upd. replace (i <? length l) with true by lia. now rewrite andb_true_r. Qed.
Ltac look := repeat match goal with
  | H : context [nth_error (upd ?l ?i ?x) ?k] |- _ => rewrite (nup l i x k) in H by (rewrite ?upd_length; lia)
  | |- context [nth_error (upd ?l ?i ?x) ?k] => rewrite (nup l i x k) by (rewrite ?upd_length; lia)
  end.
Lemma held_upd ss g x id s : g < length ss -> held (upd ss g x) id s <-> x = Some (Some (id, s)) \/ exists h, h <> g /\ nth_error ss h = Some (Some (Some (id, s))).
Proof.
  intros L. unfold held. split.
  - intros (h & E). look. destruct (Nat.eq_dec h g) as [->|D]; [rewrite Nat.eqb_refl in E; injection E as ->; now left|]. rewrite (proj2 (Nat.eqb_neq h g) D) in E. eauto.
  - intros [->|(h & D & E)]; [exists g | exists h]; look; [now rewrite Nat.eqb_refl|]. now destruct (Nat.eqb_spec h g).
Qed.

(** Disconnecting what a guard holds. *)
Lemma inv_drop k w gs n ss g c d : inv k w gs n ss -> nth_error gs g = Some (Some d) -> nth_error ss g = Some (Some c) -> exists w', conn_disconnect w d = Done w' /\ inv k w' gs n (upd ss g (Some None)).
Proof.
  intros I EG ES. assert (LS : g < length ss) by (apply nth_error_Some; congruence). pose proof (i_agree _ _ _ _ _ I g) as A. rewrite EG, ES in A. cbn [agree] in A. destruct A as (AB & A). destruct c as [(id & s)|].
  - subst d. destruct (C50_disconnect w id (i_reached _ _ _ _ _ I)) as (w' & E & R' & C & _). exists w'. split; [exact E|].
    assert (HH : length (heap w') = length (heap w)) by (unfold conn_disconnect in E; destruct (lock w (Some id)); [|now injection E as <-]; apply bind_inv in E; destruct E as (x & _ & E); exact (sig_disconnect_heap _ _ _ _ E)).
    assert (O : forall h t, nth_error ss h = Some (Some (Some (id, t))) -> h = g) by (intros h t K; exact (i_one _ _ _ _ _ I h g id t s K ES)). constructor.
    + exact R'.
    + rewrite HH. exact (i_heap _ _ _ _ _ I).
    + intros t. rewrite <- (i_lives _ _ _ _ _ I t). destruct (reached_keeps w (i_reached _ _ _ _ _ I)) as ((_ & V) & _). pose proof (proj2 (simple_vacant w (ADisconnect id) w' V E)) as SL. split; apply SL.
    + intros h. look. destruct (Nat.eqb_spec h g) as [->|D].
      * rewrite EG. cbn [agree]. rewrite HH. split; [exact AB|]. now rewrite (C50_disconnect_ends_only_its_slot w id id w' (i_reached _ _ _ _ _ I) E), Nat.eqb_refl.
      * pose proof (i_agree _ _ _ _ _ I h) as B. destruct (nth_error gs h) as [[[x|]|]|], (nth_error ss h) as [[[[i t]|]|]|] eqn:EH; cbn [agree] in *; rewrite ?HH; try exact B. split; [exact (proj1 B)|].
        rewrite (C50_disconnect_ends_only_its_slot w id x w' (i_reached _ _ _ _ _ I) E). destruct (x =? id); [reflexivity | exact (proj2 B)].
    + intros i t. rewrite C, without_in, (i_conn _ _ _ _ _ I), held_upd by assumption. split.
      * intros ((h & K) & D). right. exists h. split; [intros ->; congruence | exact K].
      * intros [K|(h & D & K)]; [discriminate|]. split; [exists h; exact K|]. intros ->. exact (D (O _ _ K)).
    + intros a b i t u. look. destruct (a =? g), (b =? g); try discriminate. exact (i_one _ _ _ _ _ I a b i t u).
  - exists w. split; [unfold conn_disconnect; unfold IsConnected in A; now destruct (lock w d)|].
    assert (U : forall h, nth_error (upd ss g (Some None)) h = nth_error ss h) by (intros h; look; destruct (Nat.eqb_spec h g) as [->|]; [now rewrite ES | reflexivity]).
    destruct I as [I1 I2 I3 I4 I5 I6]. constructor; auto.
    + intros h. now rewrite U.
    + intros i t. rewrite I5. split; intros (h & K); exists h; [rewrite U | rewrite U in K]; exact K.
    + intros a b i t u. rewrite !U. apply I6.
Qed.
(** A guard that holds nothing is replaced. *)
Lemma inv_put k w gs n ss g a b : inv k w gs n ss -> nth_error ss g = Some (Some None) -> agree w (Some a) (Some b) -> (b = None \/ b = Some None) -> inv k w (upd gs g a) n (upd ss g b).
Proof.
  intros I ES A HB. pose proof (agree_length _ _ _ (i_agree _ _ _ _ _ I)) as LE. assert (LS : g < length ss) by (apply nth_error_Some; congruence). destruct I as [I1 I2 I3 I4 I5 I6]. constructor; auto.
  - intros h. look. destruct (Nat.eqb_spec h g) as [->|]; [|apply I4]. exact A.
  - intros i t. rewrite I5, held_upd by assumption. split.
    + intros (h & K). right. exists h. split; [intros ->; congruence | exact K].
    + intros [K|(h & _ & K)]; [destruct HB; congruence | now exists h].
  - intros x y i t u. look. destruct (x =? g), (y =? g); try discriminate; try (destruct HB as [-> | ->]; discriminate). apply I6.
Qed.
(** What [h] holds passes to [g], which holds nothing. *)
Lemma inv_shift k w gs n ss g h d x : inv k w gs n ss -> g <> h -> nth_error ss g = Some (Some None) -> nth_error gs h = Some (Some d) -> nth_error ss h = Some (Some x) ->
  inv k w (upd (upd gs h (Some None)) g (Some d)) n (upd (upd ss h (Some None)) g (Some x)).
Proof.
  intros I D EG GH SH. pose proof (agree_length _ _ _ (i_agree _ _ _ _ _ I)) as LE. assert (LG : g < length ss) by (apply nth_error_Some; congruence). assert (LH : h < length ss) by (apply nth_error_Some; congruence).
  pose proof (i_agree _ _ _ _ _ I h) as AH. rewrite GH, SH in AH. destruct I as [I1 I2 I3 I4 I5 I6]. constructor; auto.
  - intros j. look. rewrite <- LE in *. destruct (Nat.eqb_spec j g) as [->|]; [exact AH|]. destruct (Nat.eqb_spec j h) as [->|]; [|apply I4]. split; [discriminate | reflexivity].
  - intros i t. rewrite I5, held_upd by (now rewrite upd_length). split.
    + intros (j & K). destruct (Nat.eq_dec j h) as [->|DJ]; [left; congruence|]. right. exists j. split; [intros ->; congruence|]. look. now destruct (Nat.eqb_spec j h).
    + intros [K|(j & _ & K)]; [exists h; congruence|]. look. destruct (j =? h); [discriminate | now exists j].
  - intros a b i t u. look. destruct (Nat.eqb_spec a g) as [->|DA], (Nat.eqb_spec b g) as [->|DB]; try reflexivity.
    + intros K1 K2. injection K1 as ->. destruct (Nat.eqb_spec b h) as [->|]; [discriminate|]. pose proof (I6 _ _ _ _ _ SH K2). congruence.
    + intros K1 K2. injection K2 as ->. destruct (Nat.eqb_spec a h) as [->|]; [discriminate|]. pose proof (I6 _ _ _ _ _ SH K1). congruence.
    + destruct (a =? h), (b =? h); try discriminate. apply I6.
Qed.
Lemma inv_append k w gs n ss : inv k w gs n ss -> inv k w (gs ++ [Some None]) n (ss ++ [Some None]).
Proof.
  intros I. pose proof (agree_length _ _ _ (i_agree _ _ _ _ _ I)) as LE. destruct I as [I1 I2 I3 I4 I5 I6].
  assert (N : forall {A} (l : list (option (option A))) j y, nth_error (l ++ [Some None]) j = Some (Some (Some y)) -> nth_error l j = Some (Some (Some y))).
  { intros A l j y K. destruct (Nat.lt_ge_cases j (length l)); [now rewrite nth_error_app1 in K|]. rewrite nth_error_app2 in K by assumption. destruct (j - length l) as [|[]]; discriminate. }
  constructor; auto.
  - intros j. destruct (Nat.lt_ge_cases j (length ss)); [rewrite !nth_error_app1 by lia; apply I4|]. rewrite !nth_error_app2 by lia. rewrite LE. destruct (j - length ss) as [|[]]; cbn; auto. split; [discriminate | reflexivity].
  - intros i t. rewrite I5. split; intros (j & K); exists j; [rewrite nth_error_app1; [exact K | apply nth_error_Some; congruence] | exact (N _ _ _ _ K)].
  - intros a b i t u K1 K2. exact (I6 _ _ _ _ _ (N _ _ _ _ K1) (N _ _ _ _ K2)).
Qed.
Lemma inv_connect k w gs n ss g s d : inv k w gs n ss -> (N.of_nat n + 5 < two64)%N -> nth_error ss g = Some (Some None) -> s < k ->
  exists w', conn_connect w d s = Done (w', Some n) /\ inv k w' (upd gs g (Some (Some n))) (S n) (upd ss g (Some (Some (n, s)))).
Proof.
  intros I HN ES HS. pose proof (agree_length _ _ _ (i_agree _ _ _ _ _ I)) as LE. assert (LS : g < length ss) by (apply nth_error_Some; congruence). pose proof (proj2 (i_lives _ _ _ _ _ I s) HS) as LV.
  destruct (C50_connect w s (i_reached _ _ _ _ _ I) LV ltac:(now rewrite (i_heap _ _ _ _ _ I))) as (w' & id & E & R' & FR & C & IC).
  assert (K : id = n /\ length (heap w') = S n).
  { destruct (reached_keeps w (i_reached _ _ _ _ _ I)) as (((S0 & G) & V) & BD). destruct (proj1 (lives_rep w S0 s (proj1 G)) LV) as (L & P & ES0). destruct (connect_rep w S0 s L P (proj1 G) BD ES0) as (w1 & E1 & _ & HH & _). rewrite E in E1. injection E1 as <- ->. rewrite HH, (i_heap _ _ _ _ _ I). split; [reflexivity | lia]. }
  destruct K as (-> & HH). exists w'. unfold conn_connect. rewrite E. cbn [bind conn_move]. split; [reflexivity|]. destruct (connect_lives _ _ _ _ E) as (_ & SL & _).
  assert (F : forall h t, nth_error ss h <> Some (Some (Some (n, t)))) by (intros h t X; apply (FR t), (i_conn _ _ _ _ _ I); now exists h).
  assert (KEEP : forall j, j <> n -> IsConnected w' (Some j) = IsConnected w (Some j)).
  { intros j D. apply eq_true_iff_eq. rewrite (C50_is_connected w' j R'), (C50_is_connected w j (i_reached _ _ _ _ _ I)). split; intros (t & X); exists t; [rewrite C in X | rewrite C]; (destruct (Nat.eq_dec t s) as [->|D']; [rewrite Nat.eqb_refl in * | rewrite (proj2 (Nat.eqb_neq t s) D') in *]); try exact X.
    - apply in_app_or in X. destruct X as [X|[X|[]]]; [exact X | congruence].
    - apply in_or_app. now left. }
  pose proof (i_heap _ _ _ _ _ I) as HP. destruct I as [I1 I2 I3 I4 I5 I6]. constructor; auto.
  - intros t. rewrite <- (I3 t). split; apply SL.
  - intros h. look. destruct (Nat.eqb_spec h g) as [->|]; [split; [intros y EY; injection EY as <-; lia | reflexivity]|].
    specialize (I4 h). destruct (nth_error gs h) as [[[x|]|]|], (nth_error ss h) as [[[[i t]|]|]|] eqn:EH; cbn [agree] in *; try exact I4; destruct I4 as (B & I4); split; try (intros y EY; specialize (B y EY); lia); try exact I4.
    rewrite KEEP; [exact I4|]. specialize (B x eq_refl). lia.
  - intros i t. rewrite C, held_upd by assumption. split.
    + intros X. assert (X' : In i (connected (trace w) t) \/ (i = n /\ t = s)) by (revert X; destruct (Nat.eqb_spec t s) as [->|]; intros X; [apply in_app_or in X; destruct X as [X|[X|[]]]; auto | auto]).
      destruct X' as [X'|(-> & ->)]; [|now left]. right. apply I5 in X'. destruct X' as (h & X'). exists h. split; [intros ->; congruence | exact X'].
    + intros [X|(h & _ & X)]; [injection X as <- <-; rewrite Nat.eqb_refl; apply in_or_app; right; now left|]. assert (X' : In i (connected (trace w) t)) by (apply I5; now exists h). destruct (Nat.eqb_spec t s) as [->|]; [apply in_or_app; now left | exact X'].
  - intros a b i t u. look. destruct (Nat.eqb_spec a g) as [->|DA], (Nat.eqb_spec b g) as [->|DB]; try reflexivity.
    + intros K1 K2. injection K1 as <- <-. destruct (F _ _ K2).
    + intros K1 K2. injection K2 as <- <-. destruct (F _ _ K1).
    + apply I6.
Qed.
Lemma inv_clear k w gs n ss s : inv k w gs n ss -> s < k ->
  exists w', sig_clear w s = Done w' /\ inv k w' gs n (map (fun h => match h with Some (Some (_, t)) => if t =? s then Some None else h | _ => h end) ss).
Proof.
  intros I HS. pose proof (proj2 (i_lives _ _ _ _ _ I s) HS) as LV. destruct (C50_clear w s (i_reached _ _ _ _ _ I) LV) as (w' & E & R' & C). exists w'. split; [exact E|].
  assert (HH : length (heap w') = length (heap w)).
  { destruct (reached_keeps w (i_reached _ _ _ _ _ I)) as (((S0 & G) & V) & BD). destruct (proj1 (lives_rep w S0 s (proj1 G)) LV) as (L & P & ES0). destruct (clear_sig_rep w S0 s L P (proj1 G) ES0) as (w1 & E1 & _ & HH & _). rewrite E in E1. injection E1 as <-. now rewrite HH. }
  assert (IC : forall x, IsConnected w' (Some x) = true -> IsConnected w (Some x) = true /\ ~ In x (connected (trace w) s)).
  { intros x K. apply (C50_is_connected w' x R') in K. destruct K as (t & K). rewrite C in K. destruct (Nat.eq_dec t s) as [->|D]; [rewrite Nat.eqb_refl in K; destruct K|]. rewrite (proj2 (Nat.eqb_neq t s) D) in K. split; [apply (C50_is_connected w x (i_reached _ _ _ _ _ I)); eauto|]. intros X. exact (D (slot_owner w x t s (i_reached _ _ _ _ _ I) K X)). }
  assert (NM : forall g id t, nth_error (map (fun h => match h with Some (Some (_, t)) => if t =? s then Some None else h | _ => h end) ss) g = Some (Some (Some (id, t))) <-> nth_error ss g = Some (Some (Some (id, t))) /\ t <> s).
  { intros g id t. rewrite nth_error_map. destruct (nth_error ss g) as [[[(i & u)|]|]|]; cbn [option_map]; split; try (intros (K & _); discriminate); try discriminate.
    - destruct (Nat.eqb_spec u s); [discriminate|]. intros K. injection K as -> ->. auto.
    - intros (K & D). injection K as -> ->. now destruct (Nat.eqb_spec t s). }
  pose proof (slot_owner w) as OW. destruct I as [I1 I2 I3 I4 I5 I6]. constructor; auto.
  - congruence.
  - intros t. rewrite <- (I3 t). destruct (reached_keeps w I1) as ((_ & V) & _). pose proof (proj2 (simple_vacant w (AClear s) w' V E)) as SL. split; apply SL.
  - intros g. rewrite nth_error_map. pose proof (I4 g) as A. destruct (nth_error gs g) as [[c|]|], (nth_error ss g) as [[[(i & t)|]|]|] eqn:EG; cbn [agree option_map] in *; try exact A; try contradiction.
    + destruct A as (B & ->). destruct (Nat.eqb_spec t s) as [->|]; rewrite HH; split; try exact B; [|reflexivity]. destruct (IsConnected w' (Some i)) eqn:K; [|reflexivity]. destruct (proj2 (IC i K)). apply I5. now exists g.
    + rewrite HH. destruct A as (B & A). split; [exact B|]. destruct c as [x|]; [|reflexivity]. destruct (IsConnected w' (Some x)) eqn:K; [|reflexivity]. destruct (IC x K). congruence.
  - intros i t. rewrite C. split.
    + destruct (Nat.eqb_spec t s) as [|D]; [intros []|]. intros K. apply I5 in K. destruct K as (g & K). exists g. now apply NM.
    + intros (g & K). apply NM in K. destruct K as (K & D). destruct (Nat.eqb_spec t s); [contradiction|]. apply I5. now exists g.
  - intros a b i t u K1 K2. apply NM in K1. apply NM in K2. exact (I6 _ _ _ _ _ (proj1 K1) (proj1 K2)).
Qed.

Lemma upd_upd {A} (l : list A) i x y : upd (upd l i x) i y = upd l i y.
Proof. revert i. induction l as [|z l IH]; intros [|i]; cbn; congruence. Qed.
Lemma upd_swap {A} (l : list A) i j x y : i <> j -> upd (upd l i x) j y = upd (upd l j y) i x.
Proof. revert i j. induction l as [|z l IH]; intros [|i] [|j] D; cbn; try congruence. f_equal. apply IH. congruence. Qed.
Lemma bad_at w s : ~ lives w s -> sig_at w s = Fault FUB.
Proof. intros H. unfold sig_at, vget. destruct (nth_error (sigs w) s) as [[x|]|] eqn:E; cbn [bind]; try reflexivity. destruct H. now exists x. Qed.

Lemma step_inv k w gs n ss o : inv k w gs n ss -> (N.of_nat n + 5 < two64)%N ->
  match hstep k (n, ss) o with
  | Some (n', ss') => exists w' gs', gstep (w, gs) o = Done (w', gs') /\ inv k w' gs' n' ss'
  | None => gstep (w, gs) o = Fault FUB
  end.
Proof.
  intros I HN. destruct o as [|g s|g|g h|g|g|s]; unfold hstep, gstep.
  - eexists _, _. split; [reflexivity|]. now apply inv_append.
  - destruct (alive ss g) as [c|] eqn:EA; [|now rewrite (guard_dead _ _ _ _ _ _ I EA)]. destruct (guard_alive _ _ _ _ _ _ _ I EA) as (d & -> & EG & ES & L1 & L2). cbn [bind]. destruct (inv_drop _ _ _ _ _ _ _ _ I EG ES) as (w1 & -> & I1). cbn [bind].
    destruct (Nat.ltb_spec s k) as [LK|LK].
    + destruct (inv_connect k w1 gs n _ g s d I1 HN ltac:(look; now rewrite Nat.eqb_refl) LK) as (w' & -> & I'). cbn [bind]. rewrite vset_done by assumption. cbn [bind]. rewrite upd_upd in I'. eauto.
    + unfold conn_connect, sig_connect. rewrite bad_at; [reflexivity|]. rewrite (i_lives _ _ _ _ _ I1). lia.
  - destruct (alive ss g) as [c|] eqn:EA; [|now rewrite (guard_dead _ _ _ _ _ _ I EA)]. destruct (guard_alive _ _ _ _ _ _ _ I EA) as (d & -> & EG & ES & L1 & L2). cbn [bind conn_move]. rewrite vset_done by assumption. cbn [bind]. eexists _, _. split; [reflexivity|].
    pose proof (agree_length _ _ _ (i_agree _ _ _ _ _ I)) as LE. pose proof (inv_append _ _ _ _ _ I) as I1.
    assert (S1 : nth_error (ss ++ [Some None]) (length ss) = Some (Some None)) by (rewrite nth_error_app2, Nat.sub_diag by lia; reflexivity).
    pose proof (inv_shift k w _ n _ (length ss) g d c I1 ltac:(lia) S1 ltac:(rewrite nth_error_app1 by lia; exact EG) ltac:(rewrite nth_error_app1 by lia; exact ES)) as I2.
    assert (U : forall A (l : list (option (option A))) x y, g < length l -> upd (upd (l ++ [Some None]) g x) (length l) y = upd l g x ++ [y]).
    { intros A l x y H. rewrite upd_app. replace (g <? length l) with true by lia. rewrite upd_app, upd_length, Nat.ltb_irrefl, Nat.sub_diag. reflexivity. }
    rewrite U in I2 by lia. rewrite <- LE in I2. rewrite U in I2 by lia. exact I2.
  - destruct (alive ss g) as [c|] eqn:EA; [|now rewrite (guard_dead _ _ _ _ _ _ I EA)]. destruct (guard_alive _ _ _ _ _ _ _ I EA) as (d & -> & EG & ES & L1 & L2). cbn [bind].
    destruct (alive ss h) as [x|] eqn:EB; [|now rewrite (guard_dead _ _ _ _ _ _ I EB)]. destruct (guard_alive _ _ _ _ _ _ _ I EB) as (e & -> & HG & HS & M1 & M2). cbn [bind].
    destruct (Nat.eqb_spec g h) as [->|D]; [eauto|]. destruct (inv_drop _ _ _ _ _ _ _ _ I EG ES) as (w1 & -> & I1). cbn [bind conn_move]. rewrite vset_done by assumption. cbn [bind]. rewrite vset_done by (now rewrite upd_length). cbn [bind]. eexists _, _. split; [reflexivity|].
    pose proof (inv_shift k w1 gs n _ g h e x I1 D ltac:(look; now rewrite Nat.eqb_refl) HG ltac:(look; now rewrite (proj2 (Nat.eqb_neq h g)) by congruence)) as I2.
    rewrite (upd_swap ss g h) in I2 by assumption. rewrite upd_upd in I2. exact I2.
  - destruct (alive ss g) as [c|] eqn:EA; [|now rewrite (guard_dead _ _ _ _ _ _ I EA)]. destruct (guard_alive _ _ _ _ _ _ _ I EA) as (d & -> & EG & ES & L1 & L2). cbn [bind]. destruct (inv_drop _ _ _ _ _ _ _ _ I EG ES) as (w1 & -> & I1). cbn [bind]. eauto.
  - destruct (alive ss g) as [c|] eqn:EA; [|now rewrite (guard_dead _ _ _ _ _ _ I EA)]. destruct (guard_alive _ _ _ _ _ _ _ I EA) as (d & -> & EG & ES & L1 & L2). cbn [bind]. unfold guard_destroy. destruct (inv_drop _ _ _ _ _ _ _ _ I EG ES) as (w1 & -> & I1). cbn [bind]. rewrite vset_done by assumption. cbn [bind]. eexists _, _. split; [reflexivity|].
    pose proof (inv_put k w1 gs n _ g None None I1 ltac:(look; now rewrite Nat.eqb_refl) Logic.I (or_introl eq_refl)) as I2. now rewrite upd_upd in I2.
  - destruct (Nat.ltb_spec s k) as [LK|LK]; [destruct (inv_clear k w gs n ss s I LK) as (w' & -> & I'); cbn [bind]; eauto|]. unfold sig_clear. rewrite bad_at; [reflexivity|]. rewrite (i_lives _ _ _ _ _ I). lia.
Qed.
Lemma hstep_le k n ss o n' ss' : hstep k (n, ss) o = Some (n', ss') -> n <= n'.
Proof. unfold hstep. intros H. repeat match type of H with context [match ?x with _ => _ end] => destruct x; try discriminate end; injection H as <- <-; lia. Qed.
Lemma hsteps_le k ops : forall n ss n' ss', hsteps k (n, ss) ops = Some (n', ss') -> n <= n'.
Proof.
  induction ops as [|o ops IH]; intros n ss n' ss' H; cbn [hsteps] in H; [injection H as <- <-; lia|]. destruct (hstep k (n, ss) o) as [(n1 & ss1)|] eqn:E; [|discriminate]. apply hstep_le in E. apply IH in H. lia.
Qed.
Lemma start_inv k : inv k (start k) [] 0 [].
Proof.
  constructor.
  - apply r_start.
  - reflexivity.
  - intros s. unfold lives, start. cbn [sigs]. split.
    + intros (x & E). assert (s < length (repeat (Some new_signal) k)) by (apply nth_error_Some; congruence). now rewrite repeat_length in *.
    + intros L. exists new_signal. now apply nth_error_repeat.
  - intros []; exact Logic.I.
  - intros id s. split; [intros [] | intros (g & K); destruct g; discriminate].
  - intros []; discriminate.
Qed.
