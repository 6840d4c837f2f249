(** C147: signals emitted by several threads. *)
From Verif Require Import Base SignalThreadModel.
Open Scope nat_scope.

(** *** What is expected *)
(** The calls of one thread, and those on one signal. *)
Definition of_thread (t : nat) (l : list (nat * nat * nat)) : list (nat * nat) := flat_map (fun '(u, s, i) => if u =? t then [(s, i)] else []) l.
Definition on_signal (s : nat) (l : list (nat * nat * nat)) : list (nat * nat) := flat_map (fun '(t, r, i) => if r =? s then [(t, i)] else []) l.
(** Every slot of every signal of a program, once, in order. *)
Definition expected (slots : nat -> nat) (program : list nat) : list (nat * nat) := flat_map (fun s => map (pair s) (seq 0 (slots s))) program.
Definition finished (st : state) (t : nat) : Prop := todo (threads st t) = [].

Section Proofs.
Variables (guarded : bool) (slots : nat -> nat) (programs : nat -> list nat).

Definition inside (p : pc) : bool := match p with Enter => false | _ => true end.
Definition progress (p : pc) (it k : nat) : nat := match p with Enter | Zero => 0 | Compare | Subscript => it | Invoke i => i | Load => it + 1 | Store x => x | Leave => k end.
Definition fits (p : pc) (it k : nat) : Prop :=
  match p with Enter | Zero | Leave => True | Compare => it <= k | Subscript | Load => it < k | Invoke i => i = it /\ i < k | Store x => x = it + 1 /\ x <= k end.

(** The state of thread [t], whose finished signals are [f]. *)
Definition on_track (st : state) (t : nat) (f : list nat) : Prop :=
  programs t = f ++ todo (threads st t) /\
  match todo (threads st t) with
  | [] => of_thread t (calls st) = expected slots f
  | s :: _ => fits (at_ (threads st t)) (iter st s) (slots s) /\
              of_thread t (calls st) = expected slots f ++ map (pair s) (seq 0 (progress (at_ (threads st t)) (iter st s) (slots s)))
  end.
Definition alone (st : state) : Prop := forall t u s r q, t <> u -> todo (threads st t) = s :: r -> todo (threads st u) = s :: q ->
  inside (at_ (threads st t)) = true -> inside (at_ (threads st u)) = true -> False.
Definition good (st : state) : Prop := forall t, exists f, on_track st t f.

Lemma put_same {X} (f : nat -> X) d x : put f d x d = x.
Proof. unfold put. now rewrite Nat.eqb_refl. Qed.
Lemma put_other {X} (f : nat -> X) d x k : k <> d -> put f d x k = f k.
Proof. unfold put. intros H. destruct (Nat.eqb_spec k d); [contradiction | reflexivity]. Qed.

Lemma of_thread_app t l m : of_thread t (l ++ m) = of_thread t l ++ of_thread t m.
Proof. apply flat_map_app. Qed.
Lemma on_signal_app s l m : on_signal s (l ++ m) = on_signal s l ++ on_signal s m.
Proof. apply flat_map_app. Qed.
Lemma seq_more (s i : nat) : map (pair s) (seq 0 (i + 1)) = map (pair s) (seq 0 i) ++ [(s, i)].
Proof. rewrite seq_app, map_app. reflexivity. Qed.

(** A thread that is not touched, and whose iterator is not either unless it is outside. *)
Lemma track_other st st' u f : on_track st u f -> threads st' u = threads st u -> of_thread u (calls st') = of_thread u (calls st) ->
  (forall s r, todo (threads st u) = s :: r -> iter st' s = iter st s \/ inside (at_ (threads st u)) = false) -> on_track st' u f.
Proof.
  intros (P & Q) E C I. unfold on_track. rewrite E, C. split; [exact P|]. destruct (todo (threads st u)) as [|s r] eqn:TD; [exact Q|].
  destruct (I s r eq_refl) as [-> | O]; [exact Q|]. destruct (at_ (threads st u)); try discriminate. exact Q.
Qed.

Lemma step_good st t : good st -> alone st -> exists st', step guarded slots st t = Done st' /\ good st'.
Proof.
  intros G AL. destruct (G t) as (f & P & Q). unfold step. destruct (todo (threads st t)) as [|s rest] eqn:TD; [eauto|]. destruct Q as [F C].
  assert (OT : forall st', (forall u, u <> t -> threads st' u = threads st u) -> (forall u, u <> t -> of_thread u (calls st') = of_thread u (calls st)) ->
    (forall r, r <> s -> iter st' r = iter st r) -> (iter st' s = iter st s \/ inside (at_ (threads st t)) = true) -> (exists f', on_track st' t f') -> good st').
  { intros st' H1 H2 H3 H4 H5 u. destruct (Nat.eq_dec u t) as [-> | N]; [exact H5|]. destruct (G u) as (g & TU). exists g. apply (track_other st); auto. intros r q TQ.
    destruct (Nat.eq_dec r s) as [-> | M]; [|left; auto]. destruct H4 as [H4|H4]; [left; exact H4|]. right. destruct (inside (at_ (threads st u))) eqn:IU; [|reflexivity].
    exfalso. exact (AL t u s rest q (not_eq_sym N) TD TQ H4 IU). }
  assert (GO : forall p, fits p (iter st s) (slots s) -> progress p (iter st s) (slots s) = progress (at_ (threads st t)) (iter st s) (slots s) -> good (go st t p)).
  { intros p FP PP. apply OT; auto.
    - intros u N. cbn [go threads]. now apply put_other.
    - exists f. unfold on_track. cbn [go threads calls iter]. rewrite put_same. cbn [todo at_]. rewrite TD, PP. auto. }
  destruct (at_ (threads st t)) as [| | | |i| |x|] eqn:AT; cbn [fits progress inside] in *.
  - destruct guarded; [destruct (mutex st s)|]; [eauto| |]; (eexists; split; [reflexivity|]).
    + apply OT; auto; [intros u N; cbn [go set_mutex threads]; now apply put_other|].
      exists f. unfold on_track. cbn [go set_mutex threads calls iter]. rewrite put_same. cbn [todo at_]. rewrite TD. cbn [fits progress]. auto.
    + apply GO; cbn [fits progress]; auto.
  - eexists. split; [reflexivity|]. apply OT; auto.
    + intros u N. cbn [go set_iter threads]. now apply put_other.
    + intros r N. cbn [go set_iter iter]. now apply put_other.
    + exists f. unfold on_track. cbn [go set_iter threads calls iter]. rewrite !put_same. cbn [todo at_]. rewrite TD, put_same. cbn [fits progress]. split; [exact P|]. split; [lia | exact C].
  - eexists. split; [reflexivity|]. apply GO; destruct (Nat.ltb_spec (iter st s) (slots s)); cbn [fits progress]; auto. lia.
  - replace (iter st s <? slots s) with true by (symmetry; now apply Nat.ltb_lt). cbn [require bind]. eexists. split; [reflexivity|]. apply GO; cbn [fits progress]; auto.
  - destruct F as [-> F]. eexists. split; [reflexivity|]. apply OT; auto.
    + intros u N. cbn [go threads]. now apply put_other.
    + intros u N. cbn [go calls]. rewrite of_thread_app. cbn [of_thread flat_map]. destruct (Nat.eqb_spec t u); [congruence|]. now rewrite !app_nil_r.
    + exists f. unfold on_track. cbn [go threads calls iter]. rewrite put_same. cbn [todo at_]. rewrite TD. cbn [fits progress]. split; [exact P|]. split; [exact F|].
      rewrite of_thread_app, C, seq_more, <- app_assoc. cbn [of_thread flat_map]. now rewrite Nat.eqb_refl.
  - eexists. split; [reflexivity|]. apply GO; cbn [fits progress]; lia.
  - destruct F as [-> F]. eexists. split; [reflexivity|]. apply OT; auto.
    + intros u N. cbn [go set_iter threads]. now apply put_other.
    + intros r N. cbn [go set_iter iter]. now apply put_other.
    + exists f. unfold on_track. cbn [go set_iter threads calls iter]. rewrite !put_same. cbn [todo at_]. rewrite TD, put_same. cbn [fits progress]. auto.
  - eexists. split; [reflexivity|]. apply OT.
    + intros u N. destruct guarded; cbn [set_mutex threads]; now apply put_other.
    + intros u N. destruct guarded; reflexivity.
    + intros r N. destruct guarded; reflexivity.
    + destruct guarded; now left.
    + exists (f ++ [s]). unfold on_track. cbn [threads calls iter]. replace (threads (if guarded then set_mutex st s None else st)) with (threads st) by (now destruct guarded).
      replace (calls (if guarded then set_mutex st s None else st)) with (calls st) by (now destruct guarded). rewrite put_same. cbn [todo at_]. rewrite <- app_assoc. split; [exact P|].
      assert (X : of_thread t (calls st) = expected slots (f ++ [s])) by (rewrite C; unfold expected; rewrite flat_map_app; cbn [flat_map]; now rewrite app_nil_r).
      destruct rest; [exact X|]. cbn [fits progress seq map]. rewrite app_nil_r. auto.
Qed.

Lemma alone_race st : alone st -> ~ race st.
Proof.
  intros AL (t & u & s & v & w & N & A1 & A2 & _). unfold access in *. destruct (todo (threads st t)) as [|s1 r1] eqn:T1; [discriminate|]. destruct (todo (threads st u)) as [|s2 r2] eqn:T2; [discriminate|].
  destruct (at_ (threads st t)) eqn:P1; try discriminate; destruct (at_ (threads st u)) eqn:P2; try discriminate; injection A1 as -> _; injection A2 as -> _;
    (eapply (AL t u); [exact N | exact T1 | exact T2 | now rewrite P1 | now rewrite P2]).
Qed.

(** Programs without a signal in common. *)
Definition apart : Prop := forall t u s, t <> u -> In s (programs t) -> In s (programs u) -> False.
Lemma apart_alone st : apart -> good st -> alone st.
Proof.
  intros AP G t u s r q N T1 T2 _ _. destruct (G t) as (f & P1 & _). destruct (G u) as (g & P2 & _). rewrite T1 in P1. rewrite T2 in P2.
  apply (AP t u s N); [rewrite P1 | rewrite P2]; apply in_or_app; right; now left.
Qed.

Lemma start_good i0 : good (start i0 programs).
Proof. intros t. exists []. split; [reflexivity|]. cbn [start threads todo]. destruct (programs t); [reflexivity|]. split; [exact Logic.I | reflexivity]. Qed.

Lemma exec_apart sched : apart -> forall st, good st -> exists st', exec guarded slots st sched = Done st' /\ good st' /\ alone st'.
Proof.
  intros AP. induction sched as [|t sched IH]; intros st G; cbn [exec]; [exists st; split; [reflexivity|]; split; [exact G | now apply apart_alone]|].
  destruct (step_good st t G (apart_alone st AP G)) as (st1 & -> & G1). cbn [bind]. exact (IH st1 G1).
Qed.

Definition outcome_of (st : state) : Prop := forall t, (exists n, of_thread t (calls st) = firstn n (expected slots (programs t))) /\ (finished st t -> of_thread t (calls st) = expected slots (programs t)).
Lemma fits_progress p it k : fits p it k -> progress p it k <= k.
Proof. destruct p; cbn; lia. Qed.
Lemma good_outcome st : good st -> outcome_of st.
Proof.
  intros G t. destruct (G t) as (f & P & Q). unfold finished. destruct (todo (threads st t)) as [|s r] eqn:TD.
  - rewrite app_nil_r in P. rewrite P, Q. split; [exists (length (expected slots f)); now rewrite firstn_all | reflexivity].
  - destruct Q as [F C]. split; [|discriminate]. apply fits_progress in F. rewrite C, P. unfold expected. rewrite flat_map_app. cbn [flat_map].
    set (a := flat_map _ f). set (m := progress _ _ _) in *. exists (length a + m). rewrite firstn_app_2. f_equal. rewrite firstn_app, map_length, seq_length. replace (m - slots s) with 0 by lia. rewrite firstn_O, app_nil_r.
    rewrite firstn_map. f_equal. rewrite <- (firstn_all (seq 0 m)), seq_length. replace (slots s) with (m + (slots s - m)) by lia. rewrite seq_app, firstn_app, seq_length, Nat.sub_diag, firstn_O, app_nil_r. reflexivity.
Qed.

(** *** The mutex *)
Definition block (s t : nat) : list (nat * nat) := map (pair t) (seq 0 (slots s)).
Definition current (st : state) (s : nat) : list (nat * nat) :=
  match mutex st s with Some t => map (pair t) (seq 0 (progress (at_ (threads st t)) (iter st s) (slots s))) | None => [] end.
Definition held (st : state) : Prop :=
  (forall t s r, todo (threads st t) = s :: r -> inside (at_ (threads st t)) = true -> mutex st s = Some t) /\
  (forall t s, mutex st s = Some t -> exists r, todo (threads st t) = s :: r /\ inside (at_ (threads st t)) = true) /\
  (forall s, exists owners, on_signal s (calls st) = flat_map (block s) owners ++ current st s).

Lemma held_alone st : held st -> alone st.
Proof. intros (H & _) t u s r q N T1 T2 I1 I2. pose proof (H t s r T1 I1). pose proof (H u s q T2 I2). congruence. Qed.

(** Thread [t], which holds the mutex of [s], goes on to [p]. *)
Lemma held_go st st' t s rest p more : held st -> todo (threads st t) = s :: rest -> inside (at_ (threads st t)) = true -> inside p = true ->
  mutex st' = mutex st -> threads st' = put (threads st) t (T (s :: rest) p) -> (forall r, r <> s -> iter st' r = iter st r) ->
  calls st' = calls st ++ map (fun i => (t, s, i)) more ->
  seq 0 (progress p (iter st' s) (slots s)) = seq 0 (progress (at_ (threads st t)) (iter st s) (slots s)) ++ more -> held st'.
Proof.
  intros (H1 & H2 & H3) TD IN IP M TH IT CA PR. split; [|split].
  - intros u r q TU IU. rewrite TH in TU, IU. rewrite M. destruct (Nat.eq_dec u t) as [-> | N]; [rewrite put_same in TU; injection TU as <- <-; exact (H1 t s rest TD IN)|].
    rewrite put_other in TU, IU by exact N. exact (H1 u r q TU IU).
  - intros u r MU. rewrite M in MU. rewrite TH. destruct (Nat.eq_dec u t) as [-> | N]; [|rewrite put_other by exact N; exact (H2 u r MU)]. rewrite put_same. cbn [todo at_].
    destruct (H2 t r MU) as (q & TQ & _). rewrite TD in TQ. injection TQ as -> ->. eauto.
  - intros r. destruct (H3 r) as (ow & E). exists ow. rewrite CA, on_signal_app, E, <- app_assoc. f_equal. unfold current. rewrite M, TH. destruct (Nat.eq_dec r s) as [-> | N].
    + rewrite (H1 t s rest TD IN), put_same. cbn [at_]. rewrite PR, map_app. f_equal. clear. induction more as [|i more IH]; [reflexivity|]. cbn [map]. unfold on_signal in *. cbn [flat_map]. rewrite Nat.eqb_refl, IH. reflexivity.
    + assert (Z : on_signal r (map (fun i => (t, s, i)) more) = []) by (clear - N; induction more as [|i more IH]; [reflexivity|]; cbn [map]; unfold on_signal in *; cbn [flat_map]; destruct (Nat.eqb_spec s r); [congruence | exact IH]).
      rewrite Z, app_nil_r, IT by exact N. destruct (mutex st r) as [u|] eqn:MU; [|reflexivity]. rewrite put_other; [reflexivity|]. intros ->. destruct (H2 t r MU) as (q & TQ & _). rewrite TD in TQ. congruence.
Qed.

Lemma step_held st t st' : good st -> held st -> step true slots st t = Done st' -> held st'.
Proof.
  intros G H E. pose proof H as (H1 & H2 & H3). unfold step in E. destruct (todo (threads st t)) as [|s rest] eqn:TD; [injection E as <-; exact H|].
  destruct (G t) as (f & _ & Q). rewrite TD in Q. destruct Q as [F _]. destruct (at_ (threads st t)) as [| | | |i| |x|] eqn:AT; cbn [fits] in F.
  - destruct (mutex st s) as [o|] eqn:MS; injection E as <-; [exact H|]. split; [|split].
    + intros u r q. cbn [go set_mutex threads mutex]. destruct (Nat.eq_dec u t) as [-> | N]; [rewrite put_same; cbn [todo at_]; rewrite TD; intros EQ _; injection EQ as <- <-; apply put_same|].
      rewrite put_other by exact N. intros TU IU. pose proof (H1 u r q TU IU) as X. rewrite put_other; [exact X|]. intros ->. congruence.
    + intros u r. cbn [go set_mutex threads mutex]. destruct (Nat.eq_dec r s) as [-> | M]; [rewrite put_same; intros X; injection X as <-; rewrite put_same; cbn [todo at_]; eauto|].
      rewrite put_other by exact M. intros MU. destruct (H2 u r MU) as (q & TQ & IQ). rewrite put_other; [eauto|]. intros ->. rewrite AT in IQ. discriminate.
    + intros r. destruct (H3 r) as (ow & EO). exists ow. cbn [go set_mutex calls]. rewrite EO. f_equal. unfold current. cbn [go set_mutex mutex threads iter]. destruct (Nat.eq_dec r s) as [-> | M].
      * rewrite MS, put_same, put_same. reflexivity.
      * rewrite put_other by exact M. destruct (mutex st r) as [u|] eqn:MU; [|reflexivity]. rewrite put_other; [reflexivity|]. intros ->. destruct (H2 t r MU) as (q & TQ & IQ). rewrite AT in IQ. discriminate.
  - injection E as <-. apply (held_go st _ t s rest Compare []); cbn [go set_iter mutex threads calls iter map]; auto; rewrite ?AT, ?TD, ?app_nil_r; auto; [intros r N; now apply put_other|]. now rewrite put_same.
  - injection E as <-. apply (held_go st _ t s rest (if iter st s <? slots s then Subscript else Leave) []); cbn [go set_iter mutex threads calls iter map]; rewrite ?AT, ?TD, ?app_nil_r; auto; destruct (Nat.ltb_spec (iter st s) (slots s)); cbn [progress inside]; auto; f_equal; lia.
  - replace (iter st s <? slots s) with true in E by (symmetry; now apply Nat.ltb_lt). cbn [require bind] in E. injection E as <-.
    apply (held_go st _ t s rest (Invoke (iter st s)) []); cbn [go set_iter mutex threads calls iter map]; rewrite ?AT, ?TD, ?app_nil_r; auto.
  - destruct F as [-> F]. injection E as <-. apply (held_go st _ t s rest Load [iter st s]); cbn [go set_iter mutex threads calls iter map]; rewrite ?AT, ?TD; auto. cbn [progress]. rewrite seq_app. reflexivity.
  - injection E as <-. apply (held_go st _ t s rest (Store (iter st s + 1)) []); cbn [go set_iter mutex threads calls iter map]; rewrite ?AT, ?TD, ?app_nil_r; auto.
  - destruct F as [-> F]. injection E as <-. eapply (held_go st _ t s rest Compare []); cbn [go set_iter mutex threads calls iter map]; rewrite ?AT, ?TD, ?app_nil_r; auto; [intros r N; now apply put_other|]. now rewrite put_same.
  - injection E as <-. assert (MT : mutex st s = Some t) by (apply (H1 t s rest TD); now rewrite AT). split; [|split].
    + intros u r q. cbn [set_mutex threads mutex]. destruct (Nat.eq_dec u t) as [-> | N]; [rewrite put_same; discriminate|]. rewrite put_other by exact N. intros TU IU. pose proof (H1 u r q TU IU) as X.
      rewrite put_other; [exact X|]. intros ->. congruence.
    + intros u r. cbn [set_mutex threads mutex]. destruct (Nat.eq_dec r s) as [-> | M]; [rewrite put_same; discriminate|]. rewrite put_other by exact M. intros MU. destruct (H2 u r MU) as (q & TQ & IQ).
      rewrite put_other; [eauto|]. intros ->. rewrite TD in TQ. congruence.
    + intros r. destruct (H3 r) as (ow & EO). cbn [set_mutex calls]. unfold current in *. cbn [set_mutex mutex threads iter]. destruct (Nat.eq_dec r s) as [-> | M].
      * exists (ow ++ [t]). rewrite EO, MT, AT, put_same, app_nil_r, flat_map_app. cbn [flat_map progress]. now rewrite app_nil_r.
      * exists ow. rewrite EO, put_other by exact M. destruct (mutex st r) as [u|] eqn:MU; [|reflexivity]. rewrite put_other; [reflexivity|]. intros ->. destruct (H2 t r MU) as (q & TQ & _). rewrite TD in TQ. congruence.
Qed.

Lemma start_held i0 : held (start i0 programs).
Proof. split; [|split]; cbn [start threads at_ mutex calls]; [discriminate | discriminate |]. intros s. exists []. reflexivity. Qed.
End Proofs.

Lemma exec_held slots programs sched : forall st, good slots programs st -> held slots st -> exists st', exec true slots st sched = Done st' /\ good slots programs st' /\ held slots st'.
Proof.
  induction sched as [|t sched IH]; intros st G H; cbn [exec]; [eauto|]. destruct (step_good true slots programs st t G (held_alone slots st H)) as (st1 & E & G1). rewrite E. cbn [bind].
  exact (IH st1 G1 (step_held slots programs st t st1 G H E)).
Qed.

(** *** Each thread its own signals *)
Theorem C147_separate : forall slots programs i0, apart programs -> forall schedule, exists st,
  exec false slots (start i0 programs) schedule = Done st /\ ~ race st /\ outcome_of slots programs st.
Proof.
  intros slots programs i0 AP sched. destruct (exec_apart false slots programs sched AP _ (start_good slots programs i0)) as (st & E & G & AL). exists st. split; [exact E|]. split; [now apply alone_race | now apply good_outcome].
Qed.
Print Assumptions C147_separate.

(** *** A mutex around each emission *)
(** Whatever the programs and the order: no race, every thread calls every slot of its signals in turn, and the emissions of a signal follow one another. *)
Theorem C147_guarded : forall slots programs i0 schedule, exists st,
  exec true slots (start i0 programs) schedule = Done st /\ ~ race st /\ outcome_of slots programs st /\
  forall s, exists emitters t n, n <= slots s /\ on_signal s (calls st) = flat_map (fun u => map (pair u) (seq 0 (slots s))) emitters ++ map (pair t) (seq 0 n).
Proof.
  intros slots programs i0 sched. destruct (exec_held slots programs sched _ (start_good slots programs i0) (start_held slots programs i0)) as (st & E & G & H). exists st. split; [exact E|].
  split; [apply alone_race; now apply (held_alone slots)|]. split; [now apply good_outcome|]. intros s. destruct H as (_ & H2 & H3). destruct (H3 s) as (ow & EO). exists ow. unfold current in EO.
  destruct (mutex st s) as [t|] eqn:MS; [|exists 0, 0; split; [lia | exact EO]]. exists t. eexists. split; [|exact EO]. destruct (H2 t s MS) as (r & TR & _). destruct (G t) as (f & _ & Q). rewrite TR in Q. now apply fits_progress.
Qed.
Print Assumptions C147_guarded.

(** *** How long it takes *)
(** Neither waiting for a mutex nor through with its program. *)
Definition ready (st : state) (t : nat) : Prop := match todo (threads st t) with [] => False | s :: _ => at_ (threads st t) = Enter -> mutex st s = None end.
(** A schedule in which nobody waits. *)
Fixpoint busy (slots : nat -> nat) (st : state) (schedule : list nat) : Prop :=
  match schedule with
  | [] => True
  | t :: schedule => ready st t /\ match step true slots st t with Done st => busy slots st schedule | Fault _ => True end
  end.
(** Five accesses or calls per slot, four per emission, over the first [n] threads. *)
Definition work (slots : nat -> nat) (programs : nat -> list nat) (n : nat) : nat := list_sum (map (fun t => list_sum (map (fun s => 5 * slots s + 4) (programs t))) (seq 0 n)).

Section Time.
Variables (slots : nat -> nat) (programs : nat -> list nat).
Definition left_in (p : pc) (it k : nat) : nat :=
  match p with Enter => 5 * k + 4 | Zero => 5 * k + 3 | Compare => 5 * (k - it) + 2 | Subscript => 5 * (k - it) + 1 | Invoke i => 5 * (k - i) | Load => 5 * (k - it) - 1 | Store x => 5 * (k - x) + 3 | Leave => 1 end.
Definition left (st : state) (t : nat) : nat :=
  match todo (threads st t) with [] => 0 | s :: rest => left_in (at_ (threads st t)) (iter st s) (slots s) + list_sum (map (fun s => 5 * slots s + 4) rest) end.

Lemma left_other st st' t s rest u : held slots st -> todo (threads st t) = s :: rest -> (inside (at_ (threads st t)) = true \/ iter st' s = iter st s) -> u <> t -> threads st' u = threads st u -> (forall r, r <> s -> iter st' r = iter st r) -> left st' u = left st u.
Proof.
  intros H TD IN N TH IT. unfold left. rewrite TH. destruct (todo (threads st u)) as [|r q] eqn:TU; [reflexivity|]. destruct (Nat.eq_dec r s) as [-> | M]; [|now rewrite IT].
  destruct IN as [IN | ->]; [|reflexivity]. destruct (inside (at_ (threads st u))) eqn:IU; [exfalso; exact (held_alone slots st H t u s rest q (not_eq_sym N) TD TU IN IU)|].
  destruct (at_ (threads st u)); try discriminate. reflexivity.
Qed.

Lemma step_left st t st' : good slots programs st -> held slots st -> ready st t -> step true slots st t = Done st' -> left st' t + 1 = left st t /\ forall u, u <> t -> left st' u = left st u.
Proof.
  intros G H RD E. unfold ready in RD. unfold step in E. destruct (todo (threads st t)) as [|s rest] eqn:TD; [contradiction|].
  assert (Q : exists p, threads st' = put (threads st) t p /\ (forall r, r <> s -> iter st' r = iter st r) /\ (inside (at_ (threads st t)) = true \/ iter st' s = iter st s) /\ left st' t + 1 = left st t).
  { destruct (G t) as (f & _ & Q). rewrite TD in Q. destruct Q as [F _]. unfold left. rewrite TD. destruct (at_ (threads st t)) as [| | | |i| |x|] eqn:AT; cbn [fits] in F.
    - rewrite (RD eq_refl) in E. injection E as <-. eexists. split; [reflexivity|]. cbn [go set_mutex threads iter]. rewrite put_same. cbn [todo at_]. rewrite TD. cbn [left_in]. split; [auto|]. split; [auto | lia].
    - injection E as <-. eexists. split; [reflexivity|]. cbn [go set_iter threads iter]. rewrite !put_same. cbn [todo at_]. rewrite TD. cbn [todo at_]. rewrite put_same. cbn [left_in inside]. split; [intros r N; now apply put_other|]. split; [auto | lia].
    - injection E as <-. eexists. split; [reflexivity|]. cbn [go threads iter]. rewrite put_same. cbn [todo at_]. rewrite TD. split; [auto|]. split; [auto|]. destruct (Nat.ltb_spec (iter st s) (slots s)); cbn [left_in]; lia.
    - replace (iter st s <? slots s) with true in E by (symmetry; now apply Nat.ltb_lt). cbn [require bind] in E. injection E as <-. eexists. split; [reflexivity|]. cbn [go threads iter]. rewrite put_same. cbn [todo at_]. rewrite TD. cbn [left_in inside]. split; [auto|]. split; [auto | lia].
    - injection E as <-. eexists. split; [reflexivity|]. cbn [go threads iter]. rewrite put_same. cbn [todo at_]. rewrite TD. cbn [left_in inside]. split; [auto|]. split; [auto | lia].
    - injection E as <-. eexists. split; [reflexivity|]. cbn [go threads iter]. rewrite put_same. cbn [todo at_]. rewrite TD. cbn [left_in inside]. split; [auto|]. split; [auto | lia].
    - injection E as <-. eexists. split; [reflexivity|]. cbn [go set_iter threads iter]. rewrite !put_same. cbn [todo at_]. rewrite TD. cbn [todo at_]. rewrite put_same. cbn [left_in inside]. split; [intros r N; now apply put_other|]. split; [auto | lia].
    - injection E as <-. eexists. split; [reflexivity|]. cbn [set_mutex threads iter]. rewrite put_same. cbn [todo at_]. split; [auto|]. split; [auto|]. destruct rest as [|q rest]; unfold list_sum; cbn [left_in map fold_right]; lia. }
  destruct Q as (p & TH & IT & IN & L). split; [exact L|]. intros u N. apply (left_other st st' t s rest u H TD IN N); [rewrite TH; now apply put_other | exact IT].
Qed.

Definition remaining (n : nat) (st : state) : nat := list_sum (map (left st) (seq 0 n)).
Lemma sum_change (f g : nat -> nat) t n : t < n -> f t + 1 = g t -> (forall u, u <> t -> f u = g u) -> list_sum (map f (seq 0 n)) + 1 = list_sum (map g (seq 0 n)).
Proof.
  intros L E O. replace n with (t + S (n - S t)) by lia. rewrite !seq_app, !map_app, !list_sum_app. cbn [seq map list_sum fold_right Nat.add].
  assert (Q : forall a m, (forall u, a <= u < a + m -> u <> t) -> map f (seq a m) = map g (seq a m)) by (intros a m H; apply map_ext_in; intros u U; apply in_seq in U; auto).
  rewrite (Q 0 t), (Q (S t) (n - S t)) by (intros; lia). unfold list_sum. lia.
Qed.
Lemma busy_counts n sched : (forall t, n <= t -> programs t = []) -> forall st st', good slots programs st -> held slots st -> busy slots st sched -> exec true slots st sched = Done st' -> length sched + remaining n st' = remaining n st.
Proof.
  intros B. induction sched as [|t sched IH]; intros st st' G H Y E; cbn [exec length] in *; [injection E as <-; lia|]. destruct Y as [RD Y].
  destruct (step_good true slots programs st t G (held_alone slots st H)) as (st1 & E1 & G1). rewrite E1 in *. cbn [bind] in E. pose proof (step_held slots programs st t st1 G H E1) as H1.
  specialize (IH st1 st' G1 H1 Y E). destruct (step_left st t st1 G H RD E1) as [L O].
  assert (T : t < n). { destruct (Nat.lt_ge_cases t n) as [X|X]; [exact X|]. exfalso. unfold ready in RD. destruct (G t) as (f & P & _). rewrite (B t X) in P. destruct (todo (threads st t)); [contradiction|]. now destruct f. }
  pose proof (sum_change (left st1) (left st) t n T L O) as S. unfold remaining in *. lia.
Qed.
Lemma left_zero st t : good slots programs st -> left st t = 0 <-> finished st t.
Proof.
  intros G. unfold left, finished. destruct (G t) as (f & _ & Q). destruct (todo (threads st t)) as [|s r]; [tauto|]. destruct Q as [F _]. split; [|discriminate].
  destruct (at_ (threads st t)); cbn [left_in fits] in *; lia.
Qed.
Lemma remaining_zero n st : good slots programs st -> remaining n st = 0 <-> forall t, t < n -> finished st t.
Proof.
  intros G. unfold remaining. split.
  - intros Z t T. apply (left_zero st t G). assert (I : In (left st t) (map (left st) (seq 0 n))) by (apply in_map, in_seq; lia). revert I Z. generalize (map (left st) (seq 0 n)). intros l. induction l as [|x l IH]; [intros []|].
    intros [-> | I]; unfold list_sum in *; cbn [fold_right]; intros Z; [lia | apply IH; [exact I | lia]].
  - intros F. rewrite (map_ext_in _ (fun _ => 0)); [|intros t T; apply in_seq in T; apply (left_zero st t G), F; lia]. generalize (seq 0 n). intros l. unfold list_sum. induction l; [reflexivity | exact IHl].
Qed.
Lemma somebody_ready n st : (forall t, n <= t -> programs t = []) -> good slots programs st -> held slots st -> (forall t, t < n -> finished st t) \/ exists t, t < n /\ ready st t.
Proof.
  intros B G H. assert (D : (forall t, t < n -> finished st t) \/ exists t, t < n /\ todo (threads st t) <> []).
  { clear. induction n as [|n [IH | (t & T & E)]]; [left; lia | | right; exists t; split; [lia | exact E]]. destruct (todo (threads st n)) eqn:E; [left; intros t T | right; exists n; split; [lia | congruence]].
    destruct (Nat.eq_dec t n) as [-> | N]; [exact E | apply IH; lia]. }
  destruct D as [D | (t & T & E)]; [now left|]. right. destruct (todo (threads st t)) as [|s r] eqn:TD; [contradiction|]. destruct (mutex st s) as [u|] eqn:M.
  - destruct H as (_ & H2 & _). destruct (H2 u s M) as (q & TU & IU). exists u. split.
    + destruct (Nat.lt_ge_cases u n) as [X|X]; [exact X|]. destruct (G u) as (f & P & _). rewrite (B u X), TU in P. now destruct f.
    + unfold ready. rewrite TU. intros X. rewrite X in IU. discriminate.
  - exists t. split; [exact T|]. unfold ready. rewrite TD. auto.
Qed.
End Time.

(** There is no deadlock, and if nobody waits the threads are through after exactly as many steps as there is work. *)
Theorem C147_ends : forall slots programs i0 n, (forall t, n <= t -> programs t = []) -> forall schedule st, exec true slots (start i0 programs) schedule = Done st ->
  ((forall t, finished st t) \/ exists t, ready st t) /\
  (busy slots (start i0 programs) schedule -> length schedule <= work slots programs n /\ (length schedule = work slots programs n <-> forall t, finished st t)).
Proof.
  intros slots programs i0 n B sched st E. destruct (exec_held slots programs sched _ (start_good slots programs i0) (start_held slots programs i0)) as (st0 & E0 & G & H). rewrite E in E0. injection E0 as <-.
  assert (F : forall t, n <= t -> finished st t) by (intros t T; destruct (G t) as (f & P & _); rewrite (B t T) in P; unfold finished; destruct (todo (threads st t)); [reflexivity | now destruct f]).
  split.
  - destruct (somebody_ready slots programs n st B G H) as [D | (t & _ & R)]; [left | right; eauto]. intros t. destruct (Nat.lt_ge_cases t n); auto.
  - intros Y. pose proof (busy_counts slots programs n sched B _ st (start_good slots programs i0) (start_held slots programs i0) Y E) as L.
    assert (W : remaining slots n (start i0 programs) = work slots programs n). { unfold remaining, work. f_equal. apply map_ext. intros t. unfold left. cbn [start threads todo at_]. destruct (programs t); [reflexivity|]. cbn [left_in map]. reflexivity. }
    rewrite W in L. split; [lia|]. pose proof (remaining_zero slots programs n st G) as Z. split; [intros X t; destruct (Nat.lt_ge_cases t n); auto; apply Z; [lia | assumption] | intros X; assert (remaining slots n st = 0) by (apply Z; auto); lia].
Qed.
Print Assumptions C147_ends.

(** *** Without a mutex *)
Section Unguarded.
Variable slots : nat -> nat.
Notation run := (exec false slots).
Lemma exec_app g st a : forall b, exec g slots st (a ++ b) = bind (exec g slots st a) (fun st => exec g slots st b).
Proof. revert st. induction a as [|t a IH]; intros st b; cbn [exec app]; [reflexivity|]. destruct (step g slots st t); cbn [bind]; [apply IH | reflexivity]. Qed.

(** What a thread on its own does from the comparison on. *)
Definition after (st st' : state) (t : nat) (th : thread) (s it : nat) (cs : list (nat * nat * nat)) : Prop :=
  threads st' t = th /\ (forall u, u <> t -> threads st' u = threads st u) /\ iter st' s = it /\ calls st' = calls st ++ cs.
Lemma after_trans a b c t th th' s i i' l l' : after a b t th s i l -> after b c t th' s i' l' -> after a c t th' s i' (l ++ l').
Proof. intros (A & B & C & D) (A' & B' & C' & D'). split; [exact A'|]. split; [intros u N; rewrite B', B; auto|]. split; [exact C'|]. now rewrite D', D, app_assoc. Qed.
Lemma one st t s rest p : threads st t = T (s :: rest) p -> (p = Subscript -> iter st s < slots s) ->
  exists st', step false slots st t = Done st' /\
    after st st' t (match p with Enter => T (s :: rest) Zero | Zero | Store _ => T (s :: rest) Compare | Compare => T (s :: rest) (if iter st s <? slots s then Subscript else Leave) | Subscript => T (s :: rest) (Invoke (iter st s)) | Invoke _ => T (s :: rest) Load | Load => T (s :: rest) (Store (iter st s + 1)) | Leave => T rest Enter end)
      s (match p with Zero => 0 | Store x => x | _ => iter st s end) (match p with Invoke i => [(t, s, i)] | _ => [] end).
Proof.
  intros TH L. unfold step. rewrite TH. cbn [todo at_]. destruct p; try (rewrite (proj2 (Nat.ltb_lt _ _) (L eq_refl)); cbn [require bind]); (eexists; split; [reflexivity|]); unfold after; cbn [go set_iter threads iter calls]; rewrite ?TH, ?put_same, ?app_nil_r; cbn [todo];
    rewrite ?put_same; (split; [reflexivity|]); (split; [intros u N; now rewrite !put_other | auto]).
Qed.
Lemma round_alone st t s rest : threads st t = T (s :: rest) Compare -> iter st s < slots s -> exists st', run st (repeat t 5) = Done st' /\ after st st' t (T (s :: rest) Compare) s (iter st s + 1) [(t, s, iter st s)].
Proof.
  intros TH L. cbn [repeat exec].
  destruct (one st t s rest Compare TH) as (s1 & E1 & A1); [discriminate|]. rewrite E1. cbn [bind]. rewrite (proj2 (Nat.ltb_lt _ _) L) in A1. pose proof A1 as (T1 & _ & I1 & _).
  destruct (one s1 t s rest Subscript T1) as (s2 & E2 & A2); [intros _; lia|]. rewrite E2. cbn [bind]. pose proof A2 as (T2 & _ & I2 & _).
  destruct (one s2 t s rest _ T2) as (s3 & E3 & A3); [discriminate|]. rewrite E3. cbn [bind]. pose proof A3 as (T3 & _ & I3 & _).
  destruct (one s3 t s rest _ T3) as (s4 & E4 & A4); [discriminate|]. rewrite E4. cbn [bind]. pose proof A4 as (T4 & _ & I4 & _).
  destruct (one s4 t s rest _ T4) as (s5 & E5 & A5); [discriminate|]. rewrite E5. cbn [bind]. exists s5. split; [reflexivity|].
  pose proof (after_trans _ _ _ _ _ _ _ _ _ _ _ (after_trans _ _ _ _ _ _ _ _ _ _ _ (after_trans _ _ _ _ _ _ _ _ _ _ _ (after_trans _ _ _ _ _ _ _ _ _ _ _ A1 A2) A3) A4) A5) as A. cbn [app] in A.
  rewrite I3, I2, I1 in A. exact A.
Qed.
Lemma loop_alone n : forall st t s rest, threads st t = T (s :: rest) Compare -> iter st s + n = slots s ->
  exists st', run st (repeat t (5 * n + 2)) = Done st' /\ after st st' t (T rest Enter) s (slots s) (map (fun i => (t, s, i)) (seq (iter st s) n)).
Proof.
  induction n as [|n IH]; intros st t s rest TH E.
  - cbn [Nat.mul Nat.add repeat exec]. unfold step. rewrite TH. cbn [todo at_]. replace (iter st s <? slots s) with false by (symmetry; apply Nat.ltb_ge; lia).
    cbn [bind go iter mutex threads calls]. rewrite TH, put_same. cbn [todo at_ bind]. eexists. split; [reflexivity|]. unfold after. cbn [iter mutex threads calls seq map]. rewrite !put_same, app_nil_r.
    split; [reflexivity|]. split; [intros u N; now rewrite !put_other|]. split; [lia | reflexivity].
  - replace (5 * S n + 2) with (5 + (5 * n + 2)) by lia. rewrite repeat_app, exec_app. destruct (round_alone st t s rest TH) as (st1 & E1 & A1 & B1 & C1 & D1); [lia|]. rewrite E1. cbn [bind].
    destruct (IH st1 t s rest A1) as (st2 & E2 & A2 & B2 & C2 & D2); [lia|]. exists st2. split; [exact E2|]. unfold after. split; [exact A2|]. split; [intros u N; rewrite B2, B1; auto|]. split; [exact C2|].
    rewrite D2, D1, C1, <- app_assoc. cbn [seq map app]. now rewrite Nat.add_1_r.
Qed.
Lemma zero_alone st t s rest : threads st t = T (s :: rest) Enter -> exists st', run st [t; t] = Done st' /\ after st st' t (T (s :: rest) Compare) s 0 [].
Proof.
  intros TH. cbn [exec]. destruct (one st t s rest Enter TH) as (s1 & E1 & A1); [discriminate|]. rewrite E1. cbn [bind]. pose proof A1 as (T1 & _ & I1 & _).
  destruct (one s1 t s rest Zero T1) as (s2 & E2 & A2); [discriminate|]. rewrite E2. cbn [bind]. exists s2. split; [reflexivity|]. exact (after_trans _ _ _ _ _ _ _ _ _ _ _ A1 A2).
Qed.
Lemma emit_alone st t s rest : threads st t = T (s :: rest) Enter ->
  exists st', run st ([t; t] ++ repeat t (5 * slots s + 2)) = Done st' /\ after st st' t (T rest Enter) s (slots s) (map (fun i => (t, s, i)) (seq 0 (slots s))).
Proof.
  intros TH. rewrite exec_app. destruct (zero_alone st t s rest TH) as (s1 & E1 & A1). rewrite E1. cbn [bind]. pose proof A1 as (T1 & _ & I1 & _).
  destruct (loop_alone (slots s) s1 t s rest T1) as (s2 & E2 & A2); [lia|]. exists s2. split; [exact E2|]. rewrite I1 in A2. exact (after_trans _ _ _ _ _ _ _ _ _ _ _ A1 A2).
Qed.
Lemma reach_alone a : forall st t s b, threads st t = T (a ++ s :: b) Enter -> exists sched st', run st sched = Done st' /\ threads st' t = T (s :: b) Zero /\ forall u, u <> t -> threads st' u = threads st u.
Proof.
  induction a as [|r a IH]; intros st t s b TH.
  - exists [t]. cbn [app] in TH. cbn [exec]. unfold step. rewrite TH. cbn [todo at_ bind]. eexists. split; [reflexivity|]. cbn [go threads]. rewrite TH, put_same. split; [reflexivity|]. intros u N. now rewrite put_other.
  - destruct (emit_alone st t r (a ++ s :: b) TH) as (st1 & E1 & A1 & B1 & _). destruct (IH st1 t s b A1) as (sched & st2 & E2 & A2 & B2).
    exists (([t; t] ++ repeat t (5 * slots r + 2)) ++ sched), st2. rewrite exec_app, E1. cbn [bind]. split; [exact E2|]. split; [exact A2|]. intros u N. rewrite B2, B1; auto.
Qed.
Lemma step_todo g programs st t st' : (forall t, exists f, programs t = f ++ todo (threads st t)) -> step g slots st t = Done st' -> forall t, exists f, programs t = f ++ todo (threads st' t).
Proof.
  intros H E u. destruct (H u) as (f & P). unfold step in E. destruct (todo (threads st t)) as [|s rest] eqn:TD; [injection E as <-; eauto|].
  assert (Q : st' = st \/ exists p, threads st' = put (threads st) t (T (s :: rest) p) \/ threads st' = put (threads st) t (T rest p)).
  { destruct (at_ (threads st t)); try (destruct g; [destruct (mutex st s)|]); try (destruct (iter st s <? slots s); cbn [require bind] in E); try discriminate E; injection E as <-; unfold go; cbn [set_mutex set_iter threads]; rewrite ?TD; eauto. }
  destruct Q as [-> | (p & [Q|Q])]; [eauto | |]; rewrite Q; (destruct (Nat.eq_dec u t) as [-> | N]; [rewrite put_same | rewrite put_other by exact N; eauto]); cbn [todo]; rewrite TD in P; [eauto|].
  exists (f ++ [s]). now rewrite <- app_assoc.
Qed.
Lemma exec_todo g programs sched : forall st st', (forall t, exists f, programs t = f ++ todo (threads st t)) -> exec g slots st sched = Done st' -> forall t, exists f, programs t = f ++ todo (threads st' t).
Proof.
  induction sched as [|t sched IH]; intros st st' H E; cbn [exec] in E; [injection E as <-; exact H|]. destruct (step g slots st t) as [st1|] eqn:E1; [|discriminate]. cbn [bind] in E. exact (IH st1 st' (step_todo g programs st t st1 H E1) E).
Qed.
End Unguarded.

(** Some schedule has a data race exactly if two threads emit a common signal. *)
Theorem C147_race_exactly : forall slots programs i0,
  (exists schedule st, exec false slots (start i0 programs) schedule = Done st /\ race st) <-> exists t u s, t <> u /\ In s (programs t) /\ In s (programs u).
Proof.
  intros slots programs i0. split.
  - intros (sched & st & E & t & u & s & v & w & N & A & B & _). exists t, u, s. split; [exact N|].
    assert (Q : forall t v, access (threads st t) = Some (s, v) -> In s (programs t)).
    { clear - E. intros t v A. destruct (exec_todo slots false programs sched (start i0 programs) st (fun t => ex_intro _ [] eq_refl) E t) as (f & P). rewrite P. apply in_or_app. right. unfold access in A.
      destruct (todo (threads st t)) as [|r q]; [discriminate|]. left. destruct (at_ (threads st t)); congruence. }
    split; eapply Q; eassumption.
  - intros (t & u & s & N & I & J). apply in_split in I. destruct I as (a & b & I). apply in_split in J. destruct J as (c & d & J).
    destruct (reach_alone slots a (start i0 programs) t s b) as (s1 & st1 & E1 & A1 & B1); [cbn [start threads]; now rewrite I|].
    destruct (reach_alone slots c st1 u s d) as (s2 & st2 & E2 & A2 & B2); [rewrite B1 by congruence; cbn [start threads]; now rewrite J|].
    exists (s1 ++ s2), st2. rewrite exec_app, E1. cbn [bind]. split; [exact E2|]. exists t, u, s, true, true. split; [exact N|]. rewrite (B2 t) by congruence. rewrite A1, A2. auto.
Qed.
Print Assumptions C147_race_exactly.

(** Two threads, each emitting the same signal once, with at least one slot. If m_slotIterator were atomic there would be no data race, but
    one schedule subscripts m_slots beyond its end, one has the first thread end without having called any slot, and one has it call the first slot twice. *)
Theorem C147_atomic_refuted : forall slots i0, 0 < slots 0 ->
  let st := start i0 (fun t => if t <? 2 then [0] else []) in
  (exists schedule, exec false slots st schedule = Fault FUB) /\
  (exists schedule st', exec false slots st schedule = Done st' /\ (forall t, finished st' t) /\ of_thread 0 (calls st') = [] /\ of_thread 1 (calls st') = map (pair 0) (seq 0 (slots 0))) /\
  (exists schedule st', exec false slots st schedule = Done st' /\ finished st' 0 /\ of_thread 0 (calls st') = map (pair 0) (0 :: seq 0 (slots 0))).
Proof.
  intros slots i0 L st. assert (N01 : 0 <> 1) by discriminate. assert (N10 : 1 <> 0) by discriminate.
  assert (P1 : forall l, of_thread 0 (map (fun i => (1, 0, i)) l) = []) by (intros l; unfold of_thread; induction l as [|i l IH]; [reflexivity | exact IH]).
  assert (P2 : forall l, of_thread 1 (map (fun i => (1, 0, i)) l) = map (pair 0) l) by (intros l; unfold of_thread; induction l as [|i l IH]; [reflexivity | cbn [map flat_map Nat.eqb app]; now f_equal]).
  assert (P0 : forall l, of_thread 0 (map (fun i => (0, 0, i)) l) = map (pair 0) l) by (intros l; unfold of_thread; induction l as [|i l IH]; [reflexivity | cbn [map flat_map Nat.eqb app]; now f_equal]).
  (* thread 0 as far as the comparison *)
  destruct (zero_alone slots st 0 0 [] eq_refl) as (s1 & E1 & T1 & O1 & I1 & C1). pose proof (O1 1 N10) as U1. cbn [st start threads Nat.ltb Nat.leb] in U1. cbn [st start calls app] in C1.
  split; [|split].
  - destruct (one slots s1 0 0 [] _ T1) as (s2 & E2 & T2 & O2 & I2 & C2); [discriminate|]. rewrite I1, (proj2 (Nat.ltb_lt _ _) L) in T2.
    destruct (emit_alone slots s2 1 0 []) as (s3 & E3 & T3 & O3 & I3 & C3); [rewrite O2 by exact N10; exact U1|].
    exists ([0; 0] ++ [0] ++ ([1; 1] ++ repeat 1 (5 * slots 0 + 2)) ++ [0]). rewrite exec_app, E1. cbn [bind]. rewrite exec_app. cbn [exec]. rewrite E2. cbn [bind]. rewrite exec_app, E3. cbn [bind exec]. unfold step. rewrite O3 by exact N01. rewrite T2. cbn [todo at_].
    rewrite I3, Nat.ltb_irrefl. reflexivity.
  - destruct (emit_alone slots s1 1 0 [] U1) as (s2 & E2 & T2 & O2 & I2 & C2). pose proof (O2 0 N01) as T2'. rewrite T1 in T2'.
    destruct (loop_alone slots 0 s2 0 0 [] T2') as (s3 & E3 & T3 & O3 & I3 & C3); [lia|].
    exists ([0; 0] ++ ([1; 1] ++ repeat 1 (5 * slots 0 + 2)) ++ repeat 0 (5 * 0 + 2)), s3. rewrite exec_app, E1. cbn [bind]. rewrite exec_app, E2. cbn [bind]. split; [exact E3|].
    split; [|rewrite C3, C2, C1; cbn [seq map app]; rewrite app_nil_r; auto].
    intros t. unfold finished. destruct (Nat.eq_dec t 0) as [-> | M0]; [now rewrite T3|]. rewrite O3 by exact M0. destruct (Nat.eq_dec t 1) as [-> | M1]; [now rewrite T2|]. rewrite O2, O1 by assumption. unfold st. cbn [start threads todo].
    replace (t <? 2) with false by (symmetry; apply Nat.ltb_ge; lia). reflexivity.
  - destruct (round_alone slots s1 0 0 [] T1) as (s2 & E2 & T2 & O2 & I2 & C2); [lia|]. pose proof (O2 1 N10) as U2. rewrite U1 in U2.
    destruct (zero_alone slots s2 1 0 [] U2) as (s3 & E3 & T3 & O3 & I3 & C3). pose proof (O3 0 N01) as T3'. rewrite T2 in T3'.
    destruct (loop_alone slots (slots 0) s3 0 0 [] T3') as (s4 & E4 & T4 & O4 & I4 & C4); [lia|].
    exists ([0; 0] ++ repeat 0 5 ++ [1; 1] ++ repeat 0 (5 * slots 0 + 2)), s4. rewrite exec_app, E1. cbn [bind]. rewrite exec_app, E2. cbn [bind]. rewrite exec_app, E3. cbn [bind]. split; [exact E4|].
    unfold finished. rewrite T4. split; [reflexivity|]. rewrite C4, C3, C2, C1, I3, I1. rewrite app_nil_r. cbn [app]. cbn [of_thread flat_map Nat.eqb app map]. f_equal. apply P0.
Qed.
Print Assumptions C147_atomic_refuted.

(** *** Examples *)
(** Three threads on two signals with two slots each: the mutex makes one of them wait, and everything is called. *)
Definition three (t : nat) : list nat := match t with 0 => [0; 1] | 1 => [1] | 2 => [0] | _ => [] end.
Definition outcome_calls (o : outcome state) : option (list (nat * nat * nat)) := match o with Done st => Some (calls st) | Fault _ => None end.
Example C147_example_guarded : outcome_calls (exec true (fun _ => 2) (start (fun _ => 7) three) ([0; 1; 2; 0; 1; 2; 0] ++ repeat 0 5 ++ repeat 1 30 ++ repeat 2 30 ++ repeat 0 40 ++ repeat 2 30)) =
  Some [(0, 0, 0); (1, 1, 0); (1, 1, 1); (0, 0, 1); (0, 1, 0); (0, 1, 1); (2, 0, 0); (2, 0, 1)].
Proof. reflexivity. Qed.
Example C147_example_work : work (fun _ => 2) three 3 = 56.
Proof. reflexivity. Qed.
Example C147_example_busy : busy (fun _ => 2) (start (fun _ => 7) three) (repeat 0 28 ++ repeat 1 14 ++ repeat 2 14).
Proof. vm_compute. repeat (split; [intros; first [reflexivity | discriminate]|]). exact I. Qed.
(** Threads 0 and 1 of the program without a mutex: a race after two steps. *)
Example C147_example_race : exists st, exec false (fun _ => 2) (start (fun _ => 7) (fun _ => [0])) [0; 1] = Done st /\ race st.
Proof. eexists. split; [reflexivity|]. exists 0, 1, 0, true, true. split; [discriminate|]. split; [reflexivity|]. split; reflexivity. Qed.
Example C147_example_apart : apart (fun t => [t; t]).
Proof. intros t u s. cbn. intuition congruence. Qed.
(** A write and a read are a race as well: thread 0 goes on to compare m_slotIterator while thread 1 is about to set it to zero. *)
Example C147_example_race_read : exists st, exec false (fun _ => 2) (start (fun _ => 7) (fun _ => [0])) [0; 0; 1] = Done st /\ race st /\ access (threads st 0) = Some (0, false).
Proof. eexists. split; [reflexivity|]. split; [|reflexivity]. exists 0, 1, 0, false, true. split; [discriminate|]. split; [reflexivity|]. split; reflexivity. Qed.
