(** C145: pointers to the elements of FixedVector, HybridVector and StackVector. *)
From Verif Require Import Base CellModel CellProofs VectorSpec VectorModel VectorProofs VectorHistory StackModel StackProofs VectorTouch.
Open Scope nat_scope.

(** A vector that operations lead to, and its contents. *)
Definition reached {A} has cap (dflt : A) (v : fvec A) (l : list A) : Prop :=
  exists ops rs, fv_run has cap dflt (fv_new cap) ops = Done (v, rs) /\ s_run (if has then None else Some cap) dflt [] ops = Done (l, rs).

(** The vector whose first inline cells hold [q], whatever that is: objects, objects moved from, or raw memory. *)
Definition with_first {A} (q : list (cell A)) (v : fvec A) : fvec A := FV (m_size v) (q ++ skipn (length q) (m_data v)) (fallback v).

Lemma reached_rep {A} has cap (dflt : A) v l : reached has cap dflt v l -> rep has cap v l.
Proof.
  intros (ops & rs & E & S). destruct (run_done has cap dflt ops (fv_new cap) [] l rs (rep_new has cap)) as (v' & E' & R).
  - exact S.
  - congruence.
Qed.

Lemma reached_inline {A} has cap (dflt : A) v l n : reached has cap dflt v l -> m_size v = Count n -> n = length l /\ n <= cap /\ length (m_data v) = cap.
Proof.
  intros R E. apply reached_rep in R as [[-> L]|[_ ->]]; [|discriminate]. cbn [inl m_size m_data] in *. injection E as <-. rewrite map_length.
  split; [reflexivity|]. split; [exact L|]. rewrite app_length, !map_length, repeat_length. lia.
Qed.

(** An operation on a vector in its inline storage that does not concern the first elements and fits neither reads nor writes them: with anything
    else in their place, it does the same to the rest. *)
Theorem C145_untouched : forall (A : Type) has cap (dflt : A) v l n, reached has cap dflt v l -> m_size v = Count n -> forall k o, k <= n ->
  untouched k n o -> has = false \/ asks n o <= cap -> forall q, length q = k ->
  fv_apply has cap dflt (with_first q v) o =
    match fv_apply has cap dflt v o with Done (v', r) => Done (with_first q v', r) | Fault f => Fault f end.
Proof.
  intros A has cap dflt v l n R E k o K U C q <-. destruct (reached_inline has cap dflt v l n R E) as (_ & L & D).
  pose proof (apply_over has cap dflt q v n o E L ltac:(lia) U C) as P. change (with_first q v) with (sub q v). rewrite P.
  destruct (fv_apply has cap dflt v o) as [[v' r]|f]; reflexivity.
Qed.
Print Assumptions C145_untouched.

(** So pointers to them remain valid, and the objects keep their values. *)
Theorem C145_pointers : forall (A : Type) has cap (dflt : A) v l n, reached has cap dflt v l -> m_size v = Count n -> forall k o, k <= n ->
  untouched k n o -> has = false \/ asks n o <= cap -> forall v' r, fv_apply has cap dflt v o = Done (v', r) ->
  forall i, i < k -> nth_error (m_data v') i = nth_error (m_data v) i /\ exists a, nth_error l i = Some a /\ nth_error (m_data v') i = Some (Obj (Some a)).
Proof.
  intros A has cap dflt v l n R E k o K U C v' r F i Hi. destruct (reached_inline has cap dflt v l n R E) as (Ln & L & D).
  assert (Lq : length (firstn k (m_data v)) = k) by (rewrite firstn_length; lia).
  pose proof (C145_untouched A has cap dflt v l n R E k o K U C (firstn k (m_data v)) Lq) as P. rewrite F in P.
  assert (W : with_first (firstn k (m_data v)) v = v) by (unfold with_first; rewrite Lq, firstn_skipn; now destruct v).
  rewrite W, F in P. injection P as P. assert (M : m_data v' = firstn k (m_data v) ++ skipn k (m_data v')) by (rewrite P at 1; cbn [with_first m_data]; now rewrite Lq).
  assert (Q : nth_error (m_data v') i = nth_error (m_data v) i).
  { rewrite M, nth_error_app1 by lia. rewrite <- (firstn_skipn k (m_data v)) at 2. now rewrite nth_error_app1 by lia. }
  split; [exact Q|]. rewrite Q. apply reached_rep in R as [[-> _]|[_ ->]]; [|discriminate]. cbn [inl m_data].
  destruct (nth_error l i) as [a|] eqn:N; [|apply nth_error_None in N; lia]. exists a. split; [reflexivity|].
  rewrite nth_error_app1 by (rewrite !map_length; lia). now rewrite map_map, (map_nth_error _ _ _ N).
Qed.
Print Assumptions C145_pointers.

Definition post {X} (P : X -> Prop) (e : outcome X) : Prop := match e with Done x => P x | Fault _ => True end.
Lemma post_bind {X Y} (P : Y -> Prop) (Q : X -> Prop) e (k : X -> outcome Y) : post Q e -> (forall x, Q x -> post P (k x)) -> post P (bind e k).
Proof. destruct e; cbn; auto. Qed.
Lemma post_any {X} (e : outcome X) : post (fun _ => True) e.
Proof. now destruct e. Qed.
Ltac skip := eapply post_bind; [apply post_any | intros ? _].

Section Storage.
Context {A : Type}.
Variables (has : bool) (cap : nat) (dflt : A).

Lemma move_post (v : fvec A) : post (fun f => m_size f = FallbackInUse) (MoveStorageToFallback has v).
Proof. unfold MoveStorageToFallback. skip. eapply post_bind; [apply post_any|]. intros [m f] _. reflexivity. Qed.
Lemma place_post (v : fvec A) i t : post (fun f => m_size f = m_size v) (EmplaceInFallback v i t).
Proof. unfold EmplaceInFallback. skip. skip. reflexivity. Qed.
Lemma grow_post (v : fvec A) n : m_size v = Count n ->
  post (fun '(f, b) => if b : bool then has = true /\ cap < n + 1 /\ m_size f = FallbackInUse else f = v /\ (has = true -> n + 1 <= cap)) (CheckFallbackOnGrow has cap v).
Proof.
  intros E. unfold CheckFallbackOnGrow. rewrite (not_spilled has v n E). unfold count. rewrite E. destruct has eqn:H; [|cbn; split; [reflexivity | discriminate]].
  destruct (Nat.leb_spec cap n); [|cbn; split; [reflexivity | lia]]. pose proof (move_post v) as M. rewrite H in M. eapply post_bind; [exact M|]. intros f F. cbn. split; [reflexivity|]. split; [lia | exact F].
Qed.

Definition right_place (a : nat) (v : fvec A) : Prop := m_size v = FallbackInUse <-> has = true /\ cap < a.
Lemma right_inline a v n : m_size v = Count n -> (has = true -> a <= cap) -> right_place a v.
Proof. intros E H. unfold right_place. rewrite E. split; [discriminate | intros [H1 H2]; specialize (H H1); lia]. Qed.
Lemma right_fallback a v : m_size v = FallbackInUse -> has = true -> cap < a -> right_place a v.
Proof. intros E H L. unfold right_place. tauto. Qed.

Lemma push_place (v : fvec A) n x : m_size v = Count n -> post (fun '(v', _) => right_place (n + 1) v') (fv_push_back has cap v x).
Proof.
  intros E. unfold fv_push_back. eapply post_bind; [apply (grow_post v n E)|]. intros [f b] P. destruct b.
  - destruct P as (H & L & F). eapply post_bind; [apply place_post|]. intros g G. apply right_fallback; congruence || assumption.
  - destruct P as [-> L]. skip. skip. skip. eapply right_inline; [first [exact E | reflexivity] | first [assumption | intros; lia]].
Qed.
Lemma emplace_back_place (v : fvec A) n x : m_size v = Count n -> post (fun '(v', _) => right_place (n + 1) v') (fv_emplace_back has cap v x).
Proof.
  intros E. unfold fv_emplace_back. eapply post_bind; [apply (grow_post v n E)|]. intros [f b] P. destruct b.
  - destruct P as (H & L & F). eapply post_bind; [apply place_post|]. intros g G. apply right_fallback; congruence || assumption.
  - destruct P as [-> L]. skip. skip. skip. eapply right_inline; [first [exact E | reflexivity] | first [assumption | intros; lia]].
Qed.
Lemma emplace_place (v : fvec A) n i x : m_size v = Count n -> post (fun '(v', _, _) => right_place (n + 1) v') (fv_emplace has cap v i x).
Proof.
  intros E. unfold fv_emplace. skip. cbv zeta. eapply post_bind; [apply (grow_post v n E)|]. intros [f b] P. destruct b.
  - destruct P as (H & L & F). eapply post_bind; [apply place_post|]. intros g G. apply right_fallback; congruence || assumption.
  - destruct P as [-> L]. skip. skip. skip. skip. eapply right_inline; [first [exact E | reflexivity] | first [assumption | intros; lia]].
Qed.
Lemma pop_place (v : fvec A) n : m_size v = Count n -> post (right_place 0) (fv_pop_back has v).
Proof. intros E. unfold fv_pop_back. rewrite (not_spilled has v n E). skip. skip. eapply right_inline; [reflexivity | lia]. Qed.
Lemma resize_place (v : fvec A) n m x : m_size v = Count n -> post (right_place m) (fv_resize_with has cap v m x).
Proof.
  intros E. unfold fv_resize_with. rewrite (not_spilled has v n E). destruct has eqn:H; cbn [andb].
  - destruct (Nat.ltb_spec cap m) as [L|L].
    + pose proof (move_post v) as M. rewrite H in M. eapply post_bind; [exact M|]. intros f F. skip. apply right_fallback; assumption.
    + skip. destruct (count v <? m); [skip; eapply right_inline; [first [exact E | reflexivity] | first [assumption | intros; lia]]|]. destruct (m <? count v); [skip; eapply right_inline; [first [exact E | reflexivity] | first [assumption | intros; lia]] | eapply right_inline; [first [exact E | reflexivity] | first [assumption | intros; lia]]].
  - assert (N : has = true -> m <= cap) by (now rewrite H).
    skip. destruct (count v <? m); [skip; eapply right_inline; [first [exact E | reflexivity] | first [assumption | intros; lia]]|]. destruct (m <? count v); [skip; eapply right_inline; [first [exact E | reflexivity] | first [assumption | intros; lia]] | eapply right_inline; [first [exact E | reflexivity] | first [assumption | intros; lia]]].
Qed.

Lemma apply_place (v : fvec A) n o : m_size v = Count n -> n <= cap -> post (fun '(v', _) => right_place (asks n o) v') (fv_apply has cap dflt v o).
Proof.
  intros E L. destruct o as [a|a|a|i a|i a|i|i j| |m|m a|m| |i a]; cbn [fv_apply asks].
  - eapply post_bind; [apply (push_place v n _ E)|]. intros [f b] P. exact P.
  - eapply post_bind; [apply (push_place v n _ E)|]. intros [f b] P. exact P.
  - eapply post_bind; [apply (emplace_back_place v n _ E)|]. intros [f b] P. exact P.
  - eapply post_bind; [apply (emplace_place v n _ _ E)|]. intros [[f b] c] P. exact P.
  - eapply post_bind; [apply (emplace_place v n _ _ E)|]. intros [[f b] c] P. exact P.
  - eapply post_bind with (Q := fun '(f, _) => right_place 0 f); [|intros [f b] P; exact P]. unfold fv_erase. rewrite (not_spilled has v n E). skip. skip.
    eapply post_bind; [eapply pop_place; cbn [m_size]; exact E | intros f P; exact P].
  - eapply post_bind with (Q := fun '(f, _) => right_place 0 f); [|intros [f b] P; exact P]. unfold fv_erase_range. rewrite (not_spilled has v n E). destruct (i =? j); [eapply right_inline; [exact E | lia]|].
    skip. skip. skip. rewrite (size_inline has v n E).
    eapply post_bind; [eapply (resize_place _ n); exact E|]. intros f P. cbn [post]. unfold right_place in *. rewrite P. split; intros [_ ?]; lia.
  - eapply post_bind; [apply (pop_place v n E)|]. intros f P. exact P.
  - eapply post_bind; [apply (resize_place v n _ _ E)|]. intros f P. exact P.
  - eapply post_bind; [apply (resize_place v n _ _ E)|]. intros f P. exact P.
  - eapply post_bind with (Q := right_place m); [|intros f P; exact P]. unfold fv_reserve. rewrite (not_spilled has v n E). destruct has eqn:H.
    + destruct (Nat.leb_spec m cap) as [C|C]; [eapply right_inline; [first [exact E | reflexivity] | first [assumption | intros; lia]]|]. cbn [negb]. pose proof (move_post v) as M. rewrite H in M. destruct (MoveStorageToFallback true v); [|exact Logic.I].
      now apply right_fallback.
    + skip. eapply right_inline; [exact E|]. now rewrite H.
  - eapply post_bind with (Q := right_place 0); [|intros f P; exact P]. unfold fv_clear. rewrite (not_spilled has v n E). skip. eapply right_inline; [reflexivity | lia].
  - eapply post_bind with (Q := right_place 0); [|intros f P; exact P]. unfold fv_set, fv_store. rewrite (not_spilled has v n E). skip. skip. eapply right_inline; [exact E | lia].
Qed.

Definition same_place (v v' : fvec A) : Prop := m_size v' = m_size v /\ m_data v' = m_data v.
Lemma apply_stays (v : fvec A) o : has = true -> m_size v = FallbackInUse -> post (fun '(v', _) => same_place v v') (fv_apply has cap dflt v o).
Proof.
  intros H E. assert (U : IsUsingFallback has v = true) by (unfold IsUsingFallback; now rewrite H, E).
  assert (G : CheckFallbackOnGrow has cap v = Done (v, true)) by (unfold CheckFallbackOnGrow; now rewrite U, H).
  assert (P : forall i t, post (same_place v) (EmplaceInFallback v i t)) by (intros i t; unfold EmplaceInFallback; skip; skip; now split).
  assert (R : forall m x, post (same_place v) (fv_resize_with has cap v m x)) by (intros m x; unfold fv_resize_with; rewrite U; skip; now split).
  destruct o as [a|a|a|i a|i a|i|i j| |m|m a|m| |i a]; cbn [fv_apply]; unfold fv_push_back, fv_emplace_back, fv_insert, fv_emplace, fv_erase, fv_erase_range, fv_pop_back, fv_clear, fv_reserve, fv_set, fv_store;
    rewrite ?G, ?U; cbn [bind].
  - eapply post_bind with (Q := fun '(f, _) => same_place v f); [|intros [f b] Q; exact Q]. eapply post_bind; [apply P | intros f Q; exact Q].
  - eapply post_bind with (Q := fun '(f, _) => same_place v f); [|intros [f b] Q; exact Q]. eapply post_bind; [apply P | intros f Q; exact Q].
  - eapply post_bind with (Q := fun '(f, _) => same_place v f); [|intros [f b] Q; exact Q]. eapply post_bind; [apply P | intros f Q; exact Q].
  - eapply post_bind with (Q := fun '(f, _, _) => same_place v f); [|intros [[f b] c] Q; exact Q]. skip. eapply post_bind; [apply P | intros f Q; exact Q].
  - eapply post_bind with (Q := fun '(f, _, _) => same_place v f); [|intros [[f b] c] Q; exact Q]. skip. eapply post_bind; [apply P | intros f Q; exact Q].
  - eapply post_bind with (Q := fun '(f, _) => same_place v f); [|intros [f b] Q; exact Q]. skip. now split.
  - eapply post_bind with (Q := fun '(f, _) => same_place v f); [|intros [f b] Q; exact Q]. skip. now split.
  - eapply post_bind with (Q := same_place v); [|intros f Q; exact Q]. skip. now split.
  - eapply post_bind; [apply R | intros f Q; exact Q].
  - eapply post_bind; [apply R | intros f Q; exact Q].
  - eapply post_bind with (Q := same_place v); [|intros f Q; exact Q]. rewrite H. destruct (m <=? cap); now split.
  - now split.
  - eapply post_bind with (Q := same_place v); [|intros f Q; exact Q]. skip. skip. now split.
Qed.
End Storage.

(** A HybridVector leaves its inline storage exactly when an operation asks for more than the capacity; a FixedVector never does. *)
Theorem C145_leaves : forall (A : Type) has cap (dflt : A) v n, m_size v = Count n -> n <= cap -> forall o v' r, fv_apply has cap dflt v o = Done (v', r) ->
  (m_size v' = FallbackInUse <-> has = true /\ cap < asks n o).
Proof. intros A has cap dflt v n E L o v' r F. pose proof (apply_place has cap dflt v n o E L) as P. rewrite F in P. exact P. Qed.
Print Assumptions C145_leaves.

(** When it has left, no object remains in the inline storage: every pointer to an element dangles. *)
Theorem C145_moved_out : forall (A : Type) has cap (dflt : A) v l, reached has cap dflt v l -> m_size v = FallbackInUse ->
  has = true /\ m_data v = repeat Raw cap /\ fallback v = map Some l.
Proof. intros A has cap dflt v l R E. apply reached_rep in R as [[-> _]|[-> ->]]; [discriminate | now split; [|split]]. Qed.
Print Assumptions C145_moved_out.

(** And it never returns to it, not even when emptied: of the operations that follow, none changes the inline storage. *)
Theorem C145_returns_refuted : forall (A : Type) cap (dflt : A) v l, reached true cap dflt v l -> m_size v = FallbackInUse ->
  forall ops v' rs, fv_run true cap dflt v ops = Done (v', rs) -> m_size v' = FallbackInUse /\ m_data v' = repeat Raw cap.
Proof.
  intros A cap dflt v l R E. destruct (C145_moved_out A true cap dflt v l R E) as (_ & D & _). clear R l. 
  intros ops. revert v E D. induction ops as [|o ops IH]; intros v E D v' rs F; cbn [fv_run] in F; [injection F as <- _; now split|].
  pose proof (apply_stays true cap dflt v o eq_refl E) as P. destruct (fv_apply true cap dflt v o) as [[w r]|]; cbn [bind] in F; [|discriminate].
  destruct P as [P1 P2]. destruct (fv_run true cap dflt w ops) as [[w' rs']|] eqn:F'; cbn [bind] in F; [|discriminate]. injection F as <- _.
  apply (IH w ltac:(congruence) ltac:(congruence) _ _ F').
Qed.
Print Assumptions C145_returns_refuted.

(** A whole history of operations of which none asks for more than the capacity stays in the inline storage. *)
Fixpoint always_fits {A} (bound : option nat) (dflt : A) (cap : nat) (l : list A) (ops : list (vop A)) : Prop :=
  match ops with
  | [] => True
  | o :: ops => asks (length l) o <= cap /\ match s_apply bound dflt l o with Done (l', _) => always_fits bound dflt cap l' ops | Fault _ => True end
  end.
Theorem C145_never_leaves : forall (A : Type) cap (dflt : A) ops v l rs, fv_run true cap dflt (fv_new cap) ops = Done (v, rs) -> s_run None dflt [] ops = Done (l, rs) ->
  (m_size v = Count (length l) <-> always_fits None dflt cap [] ops).
Proof.
  intros A cap dflt ops.
  assert (G : forall ops v0 l0 v l rs, rep true cap v0 l0 -> m_size v0 = Count (length l0) -> fv_run true cap dflt v0 ops = Done (v, rs) -> s_run None dflt l0 ops = Done (l, rs) ->
    (m_size v = Count (length l) <-> always_fits None dflt cap l0 ops)).
  { clear ops. induction ops as [|o ops IH]; intros v0 l0 v l rs R E F S; cbn [fv_run s_run always_fits] in *; [injection F as <- _; injection S as <- _; tauto|].
    destruct (s_apply None dflt l0 o) as [[l1 r1]|] eqn:SA; cbn [bind] in S; [|discriminate].
    destruct (apply_done true cap dflt v0 l0 o l1 r1 R SA) as (v1 & FA & R1). rewrite FA in F. cbn [bind] in F.
    destruct (fv_run true cap dflt v1 ops) as [[v2 rs2]|] eqn:FR; cbn [bind] in F; [|discriminate]. injection F as <- <-.
    destruct (s_run None dflt l1 ops) as [[l2 rs3]|] eqn:SR; cbn [bind] in S; [|discriminate]. injection S as <- ->.
    assert (L0 : length l0 <= cap) by (destruct R as [[_ R]|[_ ->]]; [exact R | discriminate]).
    pose proof (C145_leaves A true cap dflt v0 (length l0) E L0 o v1 r1 FA) as P.
    destruct R1 as [[-> L1]|[_ ->]].
    - assert (Q : asks (length l0) o <= cap). { destruct (Nat.le_gt_cases (asks (length l0) o) cap) as [Q|Q]; [exact Q|]. destruct P as [_ P]. discriminate (P (conj eq_refl Q)). }
      rewrite (IH _ l1 _ _ _ ltac:(left; now split) ltac:(cbn [inl m_size]; now rewrite map_length) FR SR). tauto.
    - destruct P as [P _]. destruct (P eq_refl) as [_ Q].
      assert (St : m_size v2 = FallbackInUse). { clear - FR. revert FR. generalize (@spl A cap (map Some l1)) as w, (eq_refl : m_size (@spl A cap (map Some l1)) = FallbackInUse).
        intros w. generalize rs2. induction ops as [|o ops IH] in w |- *; intros rs E F; cbn [fv_run] in F; [now injection F as <- _|].
        pose proof (apply_stays true cap dflt w o eq_refl E) as P. destruct (fv_apply true cap dflt w o) as [[w' r]|]; cbn [bind] in F; [|discriminate].
        destruct (fv_run true cap dflt w' ops) as [[w2 rs2']|] eqn:F'; cbn [bind] in F; [|discriminate]. injection F as <- _. destruct P as [P _]. eapply IH; [|exact F']. congruence. }
      rewrite St. split; [discriminate | intros [Q' _]; lia]. }
  intros v l rs F S. exact (G ops (fv_new cap) [] v l rs (rep_new true cap) eq_refl F S).
Qed.
Print Assumptions C145_never_leaves.

(** A StackVector: its storage is the block it was given; the elements before an operation stay in place there too, and no other block changes. *)
Theorem C145_stack : forall (A : Type) (dflt : A) h c n b m, nth_error h b = Some m -> n <= c -> length m = c -> forall k o, k <= n -> (forall j, o <> Reserve j) ->
  untouched k n o -> forall h' s r, sv_apply dflt (h, SV c n (Some b)) o = Done ((h', s), r) ->
  (exists n', s = SV c n' (Some b)) /\ (exists m', nth_error h' b = Some m' /\ forall i, i < k -> nth_error m' i = nth_error m i) /\
  forall b', b' <> b -> nth_error h' b' = nth_error h b'.
Proof.
  intros A dflt h c n b m B N L k o K NR U h' s r F.
  rewrite (apply_sim dflt h c n b m o B N NR) in F. unfold sim in F. destruct (fv_apply false c dflt (as_fv n m) o) as [[f x]|] eqn:E; cbn [bind] in F; [|discriminate].
  injection F as <- <- _. split; [now exists (count f)|].
  assert (Lq : length (firstn k m) = k) by (rewrite firstn_length; lia).
  assert (U' : untouched (length (firstn k m)) n o) by (now rewrite Lq).
  pose proof (apply_over false c dflt (firstn k m) (as_fv n m) n o eq_refl N ltac:(cbn [as_fv m_data]; lia) U' (or_introl eq_refl)) as P. rewrite E in P.
  assert (W : sub (firstn k m) (as_fv n m) = as_fv n m) by (unfold sub, over, as_fv; cbn [m_data m_size fallback]; now rewrite Lq, firstn_skipn).
  rewrite W, E in P. cbn [omap] in P. injection P as P.
  assert (M : m_data f = firstn k m ++ skipn k (m_data f)) by (rewrite P at 1; cbn [sub over m_data]; unfold over; now rewrite Lq).
  split.
  - exists (m_data f). assert (b < length h) by (apply nth_error_Some; congruence). split; [rewrite nth_error_upd, Nat.eqb_refl; now replace (b <? length h) with true by lia|]. intros i Hi. rewrite M, nth_error_app1 by lia.
    rewrite <- (firstn_skipn k m) at 2. now rewrite nth_error_app1 by lia.
  - intros b' D. rewrite nth_error_upd. destruct (Nat.eqb_spec b' b); [contradiction|]. reflexivity.
Qed.
Print Assumptions C145_stack.

(** A HybridVector of capacity 3 holding 1 2 3; the third is removed, 9 is inserted in its place: the first two cells do not change. *)
Example inline_stays : reached true 3 0 (FV (Count 3) (map (fun a => Obj (Some a)) [1; 2; 3]) []) [1; 2; 3] /\ untouched 2 3 (Erase 2 : vop nat) /\ asks 3 (Erase 2 : vop nat) <= 3 /\
  fv_run true 3 0 (fv_new 3) [PushCopy 1; PushCopy 2; PushCopy 3; Erase 2; Insert 2 9] =
    Done (FV (Count 3) (map (fun a => Obj (Some a)) [1; 2; 9]) [], [None; None; None; Some 2; Some 2]).
Proof. split; [exists [PushCopy 1; PushCopy 2; PushCopy 3]; eexists; split; reflexivity|]. cbn. split; [lia|]. split; [lia | reflexivity]. Qed.
(** A fourth element takes them all to the fallback, and Clear does not bring the vector back. *)
Example leaves_and_stays : fv_run true 3 0 (fv_new 3) [Resize 3; PushCopy 4; Clear; PushCopy 5] = Done (FV FallbackInUse [Raw; Raw; Raw] [Some 5], [None; None; None; None]) /\
  ~ always_fits None 0 3 [] [Resize 3; PushCopy 4; Clear; PushCopy 5] /\ always_fits None 0 3 [] [Resize 3; PopBack; PushCopy 4; Clear; Reserve 3].
Proof. split; [reflexivity|]. cbn. split; lia. Qed.
(** Removing an element earlier does change the later cells; it is not called untouched. *)
Example erase_shifts : fv_run false 3 0 (fv_new 3) [PushCopy 1; PushCopy 2; PushCopy 3; Erase 0] =
    Done (FV (Count 2) [Obj (Some 2); Obj (Some 3); Raw] [], [None; None; None; Some 0]) /\ ~ untouched 1 3 (Erase 0 : vop nat).
Proof. split; [reflexivity|]. cbn. lia. Qed.
Example stack_stays : sv_apply 0 ([[Obj (Some 7)]; [Obj (Some 1); Obj (Some 2); Raw]], SV 3 2 (Some 1)) (Insert 1 5) =
  Done (([[Obj (Some 7)]; [Obj (Some 1); Obj (Some 5); Obj (Some 2)]], SV 3 3 (Some 1)), Some 1).
Proof. reflexivity. Qed.
