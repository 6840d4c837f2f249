(** Property C148: giving back an entry of a MemoryPool twice. *)
From Verif Require Import CellProofs BitsetSpec BitsetBits BitsetProofs BitsetFind VectorCopy PoolModel PoolProofs PoolHistory PoolReset PoolExcessSpec PoolExcess.
Open Scope nat_scope.

(** [p] is a pool after a history in which entries that are not held may have been given back with NoDestruction. *)
Definition ex_reached {A} stride bs (p : @pool A) (st : list (row A)) : Prop :=
  exists at0 p0 ops rs ptrs, pool_new bs at0 = Done p0 /\ (2 <= bs \/ ~ In PClear ops) /\ pool_run stride p0 ops = Done (p, ptrs) /\ ex_run bs [(repeat Vacant bs, 0)] ops = Done (st, rs).

Lemma ex_reached_rep {A} stride bs (p : @pool A) st : 0 < bs -> ex_reached stride bs p st -> drep bs p st.
Proof.
  intros HB (at0 & p0 & ops & rs & ptrs & E0 & HC & ER & ES). destruct (@new_d A bs HB at0) as (q & Eq & R). rewrite E0 in Eq. injection Eq as <-.
  pose proof (run_d stride bs HB ops p0 _ R HC) as D. rewrite ES in D. destruct D as (p' & ptrs' & E' & R' & _). rewrite ER in E'. injection E' as <- _. exact R'.
Qed.

(** Every history of this kind goes as specified: the same indices, and the assertion where the specification has it. *)
Theorem C148_history : forall (A : Type) stride bs at0 (ops : list (pop A)), 0 < bs -> 2 <= bs \/ ~ In PClear ops ->
  exists p0, pool_new bs at0 = Done p0 /\
  match ex_run bs [(repeat Vacant bs, 0)] ops with
  | Done (st, rs) => exists p ptrs, pool_run stride p0 ops = Done (p, ptrs) /\ map (option_map fst) ptrs = rs /\ ex_reached stride bs p st
  | Fault FUB => True
  | Fault f => f = FAssert /\ pool_run stride p0 ops = Fault FAssert
  end.
Proof.
  intros A stride bs at0 ops HB HC. destruct (@new_d A bs HB at0) as (p0 & E0 & R). exists p0. split; [exact E0|]. pose proof (run_d stride bs HB ops p0 _ R HC) as D.
  assert (F : forall (ops : list (pop A)) st f, ex_run bs st ops = Fault f -> f = FUB \/ f = FAssert).
  { clear. assert (T : forall (x : slot A) st j f, ex_take bs st x j = Fault f -> f = FAssert).
    { intros x st. induction st as [|[s d] st IH]; intros j f E; cbn [ex_take] in E; [discriminate|]. destruct (believed (s, d) =? bs).
      - destruct (ex_take bs st x (S j)) as [[]|g] eqn:G; cbn [bind] in E; [discriminate|]. injection E as <-. exact (IH _ _ G).
      - destruct (first_vacant s); [discriminate|]. now injection E as <-. }
    induction ops as [|o ops IH]; intros st f E; cbn [ex_run] in E; [discriminate|]. destruct (ex_apply bs st o) as [[st1 r]|g] eqn:G; cbn [bind] in E.
    - destruct (ex_run bs st1 ops) as [[]|h] eqn:H; cbn [bind] in E; [discriminate|]. injection E as <-. exact (IH _ _ H).
    - injection E as <-. destruct o; cbn [ex_apply] in G.
      + destruct (ex_take bs st (Live a) 0) as [[]|h] eqn:H; cbn [bind] in G; [discriminate|]. injection G as <-. right. exact (T _ _ _ _ H).
      + destruct (ex_take bs st Deferred 0) as [[]|h] eqn:H; cbn [bind] in G; [discriminate|]. injection G as <-. right. exact (T _ _ _ _ H).
      + destruct (ex_slot bs st i) as [[| |]|]; try discriminate; injection G as <-; auto.
      + destruct (ex_slot bs st i) as [[| |]|]; try discriminate; injection G as <-; auto.
      + destruct (ex_slot bs st i) as [[| |]|]; try (destruct (ex_believed bs st i =? 0)); try discriminate; injection G as <-; auto.
      + destruct (ex_slot bs st i) as [[| |]|]; try (destruct (ex_believed bs st i =? 0)); try discriminate; injection G as <-; auto.
      + destruct (forallb _ st); [discriminate|]. injection G as <-. auto. }
  destruct (ex_run bs [(repeat Vacant bs, 0)] ops) as [[st rs]|f] eqn:E.
  - destruct D as (p & ptrs & EP & RP & M). exists p, ptrs. split; [exact EP|]. split; [exact M|]. exists at0, p0, ops, rs, ptrs. auto.
  - destruct (F ops _ _ E) as [-> | ->]; auto.
Qed.

(** Histories that keep to the contract (C40) are among them: the two specifications agree, without returns too many. *)
Definition flat {A} bs (l : list (slot A)) (st : list (row A)) : Prop := concat (map fst st) = l /\ Forall (fun y => length (fst y) = bs /\ snd y = 0) st.
Lemma flat_rows {A} bs (st : list (row A)) : Forall (fun y => length (fst y) = bs /\ snd y = 0) st -> rows bs (map fst st).
Proof. intros F. unfold rows. apply Forall_map. revert F. apply Forall_impl. now intros y (L & _). Qed.
Lemma flat_take {A} bs (x : slot A) : 0 < bs -> forall st j, Forall (fun y => length (fst y) = bs /\ snd y = 0) st ->
  exists st', ex_take bs st x j = Done (st', j * bs + snd (sp_take bs (concat (map fst st)) x)) /\ flat bs (fst (sp_take bs (concat (map fst st)) x)) st'.
Proof.
  intros HB. induction st as [|[s d] st IH]; intros j F.
  - exists [(x :: repeat Vacant (bs - 1), 0)]. unfold sp_take. cbn [ex_take map concat first_vacant app length fst snd]. split; [do 2 f_equal; lia|]. split; [cbn; now rewrite app_nil_r|]. constructor; [|constructor].
    split; [|reflexivity]. cbn [fst length]. rewrite repeat_length. lia.
  - inversion F as [|? ? (L & D) F']. cbn [fst snd] in L, D. subst d. destruct (IH (S j) F') as (st' & E & (C & G)). unfold sp_take in *. cbn [ex_take map concat fst]. unfold believed. cbn [fst snd]. rewrite Nat.sub_0_r.
    pose proof (count_full s) as K. rewrite L in K. rewrite K, first_vacant_app. clear K. destruct (first_vacant s) as [k|] eqn:V.
    + exists ((upd s k x, 0) :: st). cbn [fst snd]. split; [reflexivity|]. destruct (first_vacant_some bs _ _ V) as (Hk & _). split.
      * cbn [map concat fst]. clear - Hk. revert k Hk. induction s as [|y s IH]; intros [|k] Hk; cbn [length] in Hk; try lia; [reflexivity|]. cbn [upd app]. f_equal. apply IH. lia.
      * constructor; [|exact F']. cbn [fst snd]. now rewrite upd_length.
    + rewrite E. cbn [bind]. destruct (first_vacant (concat (map fst st))) as [q|]; cbn [option_map fst snd] in *.
      * exists ((s, 0) :: st'). split; [do 2 f_equal; lia|]. split; [|constructor; auto]. cbn [map concat fst]. rewrite C. clear. induction s as [|y s IH]; [reflexivity|]. cbn [app length Nat.add upd]. now rewrite IH.
      * exists ((s, 0) :: st'). split; [do 2 f_equal; rewrite app_length; lia|]. split; [|constructor; auto]. cbn [map concat fst]. now rewrite C, app_assoc.
Qed.
Lemma flat_slot {A} bs l (st : list (row A)) i x : 0 < bs -> flat bs l st -> nth_error l i = Some x -> ex_slot bs st i = Some x /\ (held x = true -> ex_believed bs st i <> 0) /\ forall y, flat bs (upd l i y) (ex_put bs st i y 0).
Proof.
  intros HB (C & F) E. pose proof (flat_rows bs st F) as HR. rewrite <- C in E. destruct (rows_split bs _ i x HB HR E) as (s & Es & Ex). unfold ex_slot, ex_believed, ex_put.
  rewrite nth_error_map in Es. destruct (nth_error st (i / bs)) as [[s' d]|] eqn:N; [|discriminate]. injection Es as ->. pose proof F as F'. rewrite Forall_forall in F'. destruct (F' _ (nth_error_In _ _ N)) as (L & D). cbn [fst snd] in L, D. subst d.
  split; [exact Ex|]. split.
  - intros H. unfold believed. cbn [fst snd]. pose proof (count_pos bs s _ _ Ex H). lia.
  - intros y. split.
    + rewrite map_upd. cbn [fst]. assert (N' : nth_error (map fst st) (i / bs) = Some s) by now rewrite nth_error_map, N. assert (M : i mod bs < bs) by (apply Nat.mod_upper_bound; lia).
      rewrite <- (rows_upd bs _ _ _ _ _ HR N' M), C. f_equal. pose proof (Nat.div_mod_eq i bs). lia.
    + apply Forall_upd; [exact F|]. cbn [fst snd]. now rewrite upd_length.
Qed.
Theorem C148_conservative : forall (A : Type) bs (ops : list (pop A)) l rs, 0 < bs -> sp_run bs (repeat Vacant bs) ops = Done (l, rs) ->
  exists st, ex_run bs [(repeat Vacant bs, 0)] ops = Done (st, rs) /\ concat (map fst st) = l /\ ex_excess st = 0.
Proof.
  intros A bs ops l rs HB.
  assert (G : forall ops l0 st l rs, flat bs l0 st -> sp_run bs l0 ops = Done (l, rs) -> exists st', @ex_run A bs st ops = Done (st', rs) /\ flat bs l st').
  { clear ops l rs. induction ops as [|o ops IH]; intros l0 st l rs H E; cbn [sp_run ex_run] in *; [injection E as <- <-; eauto|].
    destruct (sp_apply bs l0 o) as [[l1 r]|] eqn:E1; [|discriminate]. cbn [bind] in E. destruct (sp_run bs l1 ops) as [[l2 rs2]|] eqn:E2; [|discriminate]. cbn [bind] in E. injection E as <- <-.
    enough (S1 : exists st1, ex_apply bs st o = Done (st1, r) /\ flat bs l1 st1). { destruct S1 as (st1 & -> & H1). cbn [bind]. destruct (IH _ _ _ _ H1 E2) as (st2 & -> & H2). cbn [bind]. eauto. }
    clear IH E2. pose proof H as (C & F). destruct o; cbn [sp_apply ex_apply] in *.
    - destruct (flat_take bs (Live a) HB st 0 F) as (st1 & -> & H1). rewrite C in *. cbn [bind]. destruct (sp_take bs l0 (Live a)) as [l' i]. injection E1 as <- <-. exists st1. split; [reflexivity | exact H1].
    - destruct (flat_take bs Deferred HB st 0 F) as (st1 & -> & H1). rewrite C in *. cbn [bind]. destruct (sp_take bs l0 Deferred) as [l' i]. injection E1 as <- <-. exists st1. split; [reflexivity | exact H1].
    - destruct (nth_error l0 i) as [y|] eqn:N; [|discriminate]. destruct (flat_slot bs l0 st i y HB H N) as (-> & _ & U). destruct y; try discriminate. injection E1 as <- <-. eexists. split; [reflexivity | apply U].
    - destruct (nth_error l0 i) as [y|] eqn:N; [|discriminate]. destruct (flat_slot bs l0 st i y HB H N) as (-> & _ & U). destruct y; try discriminate. injection E1 as <- <-. eexists. split; [reflexivity | apply U].
    - destruct (nth_error l0 i) as [y|] eqn:N; [|discriminate]. destruct (flat_slot bs l0 st i y HB H N) as (-> & B & U). destruct y; try discriminate. injection E1 as <- <-. specialize (B eq_refl). apply Nat.eqb_neq in B. rewrite B. eexists. split; [reflexivity | apply U].
    - destruct (nth_error l0 i) as [y|] eqn:N; [|discriminate]. destruct (flat_slot bs l0 st i y HB H N) as (-> & B & U). destruct y; try discriminate. injection E1 as <- <-. specialize (B eq_refl). apply Nat.eqb_neq in B. rewrite B. eexists. split; [reflexivity | apply U].
    - destruct (sp_settled l0) eqn:S; [|discriminate]. injection E1 as <- <-. replace (forallb _ st) with true; [eexists; split; [reflexivity|]; split; [reflexivity | constructor]|]. symmetry. apply forallb_forall. intros y I. apply orb_true_iff. right.
      rewrite <- C in S. unfold sp_settled in *. rewrite forallb_forall in S. apply forallb_forall. intros z J. apply S. apply in_concat. exists (fst y). split; [now apply in_map | exact J]. }
  intros E. destruct (G ops (repeat Vacant bs) [(repeat Vacant bs, 0)] l rs) as (st & ES & (C & F)); auto.
  - split; [cbn; now rewrite app_nil_r|]. constructor; [|constructor]. cbn [fst snd]. now rewrite repeat_length.
  - exists st. split; [exact ES|]. split; [exact C|]. unfold ex_excess, list_sum. clear - F. induction F as [|y st (_ & D) F IH]; [reflexivity|]. cbn [map fold_right]. lia.
Qed.

(** The second return is refused exactly when the pool believes that the block is empty; otherwise the counter of the block is too low from then on. *)
Theorem C148_refused_exactly : forall (A : Type) stride bs (p : @pool A) st i, 0 < bs -> ex_reached stride bs p st -> ex_slot bs st i = Some Vacant ->
  (Free_nodestruction p i = Fault FAssert <-> exists s d, nth_error st (i / bs) = Some (s, d) /\ sp_count s = d) /\
  (forall p', Free_nodestruction p i = Done p' -> GetAllocatedEntryCount p = S (GetAllocatedEntryCount p') /\ map memory (m_blocks p') = map memory (m_blocks p)).
Proof.
  intros A stride bs p st i HB R0 S1. pose proof (ex_reached_rep _ _ _ _ HB R0) as R. pose proof R as (HBp & H).
  destruct (slot_row bs HB p st i _ R S1) as (s & d & b & Es & Ex & Eb & Hb & Hm & HL).
  assert (U : Free_nodestruction p i = release p (i / bs) (i mod bs)) by (unfold Free_nodestruction, split_index; rewrite HBp; replace (bs =? 0) with false by lia; reflexivity).
  rewrite U. pose proof (release_d bs HB p st i Vacant R S1 eq_refl) as RL. unfold ex_believed in RL. rewrite Es in RL. pose proof Hb as (_ & HC & _). cbn [fst snd] in HC. unfold believed in RL. cbn [fst snd] in RL. split.
  - destruct (Nat.eqb_spec (sp_count s - d) 0) as [Z|NZ].
    + split; [intros _; exists s, d; split; [exact Es | lia] | intros _; exact RL].
    + destruct RL as (p' & E & _). rewrite E. split; [discriminate|]. intros (s' & d' & E' & C). rewrite Es in E'. injection E' as <- <-. lia.
  - intros p' E. split.
    + destruct (Nat.eqb_spec (sp_count s - d) 0) as [Z|NZ]; [congruence|]. destruct RL as (p2 & E2 & R2). rewrite E in E2. injection E2 as <-. pose proof (count_d bs HB p st R) as C1. pose proof (count_d bs HB p' _ R2) as C2.
      unfold ex_put, ex_excess, ex_held in *. rewrite Es in C2. cbn [held vacant negb] in C2.
      assert (G : forall (f : row A -> nat) y, list_sum (map f (upd st (i / bs) y)) + f (s, d) = list_sum (map f st) + f y).
      { intros f y. clear - Es. revert Es. generalize (i / bs) as k. induction st as [|z st IH]; intros [|k] E; try discriminate; cbn [nth_error upd map] in *; unfold list_sum in *; cbn [fold_right] in *.
        - injection E as ->. lia.
        - specialize (IH k E). lia. }
      pose proof (G snd (upd s (i mod bs) Vacant, 1 + d)) as G1. pose proof (G (fun x => sp_count (fst x)) (upd s (i mod bs) Vacant, 1 + d)) as G2. cbn [fst snd] in G1, G2.
      pose proof (count_upd bs s (i mod bs) _ Vacant Ex) as CU. cbn [held vacant negb] in CU. cbn [Nat.add fst snd] in *. lia.
    + unfold release in E. rewrite (vget_some _ _ _ Eb) in E. cbn [bind] in E. destruct (assert _); [|discriminate]. cbn [bind] in E. destruct (Set_ _ _ _ _); [|discriminate]. cbn [bind] in E. destruct (ResetBit _ _ _); [|discriminate]. cbn [bind] in E.
      rewrite vset_done in E by (apply nth_error_Some; congruence). cbn [bind] in E. injection E as <-. cbn [m_blocks]. rewrite map_upd. apply upd_id. cbn [memory]. now apply map_nth_error.
Qed.

(** The number of allocated entries that the pool reports is too low by the number of returns too many. *)
Theorem C148_counters : forall (A : Type) stride bs (p : @pool A) st, 0 < bs -> ex_reached stride bs p st -> GetAllocatedEntryCount p + ex_excess st = ex_held st.
Proof. intros A stride bs p st HB R. exact (count_d bs HB p st (ex_reached_rep _ _ _ _ HB R)). Qed.

(** What stays true: an entry that is handed out was not held, and the other entries keep what they are. *)
Theorem C148_never_shared : forall (A : Type) bs (st st' : list (row A)) x i, 0 < bs -> Forall (fun y => length (fst y) = bs) st -> ex_take bs st x 0 = Done (st', i) ->
  (ex_slot bs st i = Some Vacant \/ ex_slot bs st i = None) /\ ex_slot bs st' i = Some x /\ (forall k y, k <> i -> ex_slot bs st k = Some y -> ex_slot bs st' k = Some y) /\ ex_excess st' = ex_excess st.
Proof.
  intros A bs st st' x i HB HL E.
  assert (G : forall st j st' i, Forall (fun y => length (fst y) = bs) st -> @ex_take A bs st x j = Done (st', i) ->
    (exists m s d k, nth_error st m = Some (s, d) /\ first_vacant s = Some k /\ i = (j + m) * bs + k /\ st' = upd st m (upd s k x, d)) \/ (i = (j + length st) * bs /\ st' = st ++ [(x :: repeat Vacant (bs - 1), 0)])).
  { clear st st' i HL E. induction st as [|[s d] st IH]; intros j st' i HL E; cbn [ex_take] in E.
    - injection E as <- <-. right. cbn [length app]. split; [f_equal; lia | reflexivity].
    - assert (L2 : Forall (fun y => length (fst y) = bs) st) by (now inversion HL). destruct (believed (s, d) =? bs).
      + destruct (ex_take bs st x (S j)) as [[st1 i1]|] eqn:T; [|discriminate]. cbn [bind] in E. injection E as <- <-. destruct (IH _ _ _ L2 T) as [(m & s' & d' & k & N & V & -> & ->)|(-> & ->)].
        * left. exists (S m), s', d', k. split; [exact N|]. split; [exact V|]. split; [f_equal; f_equal; lia | reflexivity].
        * right. cbn [length app]. split; [f_equal; lia | reflexivity].
      + destruct (first_vacant s) as [k|] eqn:V; [|discriminate]. injection E as <- <-. left. exists 0, s, d, k. rewrite Nat.add_0_r. auto. }
  assert (SE : forall (f : row A -> nat) m y z, nth_error st m = Some y -> f z = f y -> list_sum (map f (upd st m z)) = list_sum (map f st)).
  { intros f m y z. clear. revert m. induction st as [|w st IH]; intros [|m] E F; try discriminate; cbn [nth_error upd map] in *; unfold list_sum in *; cbn [fold_right] in *; [injection E as ->; lia | specialize (IH m E F); lia]. }
  destruct (G st 0 st' i HL E) as [(m & s & d & k & N & V & -> & ->)|(-> & ->)]; cbn [Nat.add].
  - assert (L : length s = bs) by (rewrite Forall_forall in HL; exact (HL _ (nth_error_In _ _ N))). destruct (first_vacant_some bs _ _ V) as (Hk & Vk & _). rewrite L in Hk. destruct (div_row bs HB m k Hk) as (D1 & D2).
    assert (N' : nth_error (upd st m (upd s k x, d)) m = Some (upd s k x, d)) by (rewrite nth_error_upd, Nat.eqb_refl; replace (m <? length st) with true; [reflexivity|]; symmetry; apply Nat.ltb_lt, nth_error_Some; congruence).
    unfold ex_slot. rewrite D1, D2, N, N'. split; [left; exact Vk|]. split; [rewrite nth_error_upd, Nat.eqb_refl; now replace (k <? length s) with true by lia|]. split.
    + intros q y Hq Ey. destruct (Nat.eq_dec (q / bs) m) as [Q|Q].
      * rewrite Q in *. rewrite N in Ey. rewrite N', nth_error_upd. destruct (Nat.eqb_spec (q mod bs) k) as [K|K]; [|exact Ey]. exfalso. apply Hq. pose proof (Nat.div_mod_eq q bs). lia.
      * rewrite nth_error_upd. destruct (Nat.eqb_spec (q / bs) m); [contradiction | exact Ey].
    + unfold ex_excess. apply (SE snd m (s, d)); auto.
  - destruct (div_row bs HB (length st) 0 HB) as (D1 & D2). rewrite Nat.add_0_r in D1, D2. unfold ex_slot. rewrite D1, D2. rewrite (proj2 (nth_error_None st (length st))) by lia. split; [now right|].
    rewrite nth_error_app2, Nat.sub_diag by lia. split; [reflexivity|]. split.
    + intros q y _ Ey. destruct (nth_error st (q / bs)) as [z|] eqn:Z; [|discriminate]. rewrite nth_error_app1 by (apply nth_error_Some; congruence). now rewrite Z.
    + unfold ex_excess, list_sum. rewrite map_app, fold_right_app. reflexivity.
Qed.

(** Refuted: with one return too many, the pool hands out at most as many entries as are free, gets no new block, and then every allocation asserts. *)
Theorem C148_stops_refuted : forall (A : Type) stride bs (p : @pool A) st at_, 0 < bs -> ex_reached stride bs p st -> 0 < ex_excess st ->
  exists n p' ptrs, n <= GetBlockCount p * bs - ex_held st /\ pool_run stride p (repeat (PDefer at_) n) = Done (p', ptrs) /\ GetBlockCount p' = GetBlockCount p /\ forall at', Allocate_defer stride p' at' = Fault FAssert.
Proof.
  intros A stride bs p st at_ HB R0 HX. pose proof (ex_reached_rep _ _ _ _ HB R0) as R.
  assert (J : exists j s d, nth_error st j = Some (s, d) /\ 0 < d).
  { unfold ex_excess, list_sum in HX. clear - HX. induction st as [|[s d] st IH]; cbn [map fold_right snd] in HX; [lia|]. destruct d as [|d].
    - destruct (IH HX) as (j & s' & d' & E & D). exists (S j), s', d'. auto.
    - exists 0, s, (S d). split; [reflexivity | lia]. }
  destruct J as (j & s & d & E & D). destruct (starve_d stride bs HB p st j s d at_ R E D) as (n & p' & ptrs & H). exists n, p', ptrs. unfold GetBlockCount at 1. rewrite (Forall2_len _ _ _ (proj2 R)). exact H.
Qed.

(** Refuted: Clear and the destructor leave out a block that is believed empty; the objects in it are never destroyed. *)
Theorem C148_lost_refuted : forall (A : Type) stride bs (p : @pool A) st, 2 <= bs -> ex_reached stride bs p st -> Forall (fun x => sp_count (fst x) = snd x \/ sp_settled (fst x) = true) st ->
  exists dropped, Clear p = Done (MP bs [], dropped) /\ pool_destroy p = Done dropped /\
  map memory dropped = map (fun x => if sp_count (fst x) =? snd x then map (fun y => match y with Live a => Obj (Some a) | _ => Raw end) (fst x) else repeat Raw bs) st.
Proof.
  intros A stride bs p st HB R0 HF. pose proof (ex_reached_rep _ _ _ _ (Nat.lt_le_trans 0 2 bs ltac:(lia) HB) R0) as R. pose proof R as (HBp & H).
  assert (C : forallb (fun x : row A => (believed x =? 0) || sp_settled (fst x)) st = true).
  { rewrite forallb_forall. rewrite Forall_forall in HF. intros x I. destruct (HF x I) as [E|E]; apply orb_true_iff; [left; unfold believed; apply Nat.eqb_eq; lia | now right]. }
  destruct (reset_d bs ltac:(lia) _ _ HB H C) as (l & E & M). exists l. unfold Clear, pool_destroy, Reset. rewrite E. cbn [bind m_blocks m_blockSize]. rewrite HBp. split; [reflexivity|]. split; [reflexivity|].
  rewrite M. clear - H HB. induction H as [|b x lb st (HL & HC & _) H IH]; [reflexivity|]. cbn [map]. rewrite IH. f_equal. unfold ex_wiped, believed.
  destruct (Nat.eqb_spec (sp_count (fst x)) (snd x)) as [Q|Q]; [replace (sp_count (fst x) - snd x =? 0) with true by (symmetry; apply Nat.eqb_eq; lia) | replace (sp_count (fst x) - snd x =? 0) with false by (symmetry; apply Nat.eqb_neq; lia)]; reflexivity.
Qed.

(** A pool of blocks of two: entry 1 is given back twice while entry 0 holds an object. The pool then reports no entry; the object is lost by Clear; and after one more allocation
    the next one asserts. *)
Definition twice : list (pop nat) := [PAlloc 5 0; PAlloc 6 0; PFree 1; PFreeNoDestruction 1].
Example C148_ex_twice : ex_run 2 [(repeat Vacant 2, 0)] twice = Done ([([Live 5; Vacant], 1)], [Some 0; Some 1; None; None]).
Proof. reflexivity. Qed.
Example C148_ex_count : (p <- pool_new 2 0 ;; ' (p, _) <- pool_run 8 p twice ;; Done (GetAllocatedEntryCount p)) = Done 0.
Proof. vm_compute. reflexivity. Qed.
Example C148_ex_lost : (p <- pool_new 2 0 ;; ' (p, _) <- pool_run 8 p twice ;; ' (_, dropped) <- Clear p ;; Done (map memory dropped)) = Done [[Obj (Some 5); Raw]].
Proof. vm_compute. reflexivity. Qed.
Example C148_ex_third : (p <- pool_new 2 0 ;; ' (p, _) <- pool_run 8 p (twice ++ [PFreeNoDestruction 1]) ;; Done (GetAllocatedEntryCount p)) = Fault FAssert.
Proof. vm_compute. reflexivity. Qed.
Example C148_ex_stops : (p <- pool_new 2 0 ;; ' (p, r) <- pool_run 8 p (twice ++ [PAlloc 7 0]) ;; Done (map (option_map fst) r, Allocate_defer 8 p 100)) = Done ([Some 0; Some 1; None; None; Some 1], Fault FAssert).
Proof. vm_compute. reflexivity. Qed.
Example C148_ex_free : (p <- pool_new 2 0 ;; ' (p, _) <- pool_run 8 p twice ;; Free 8 p 0) = Fault FAssert.
Proof. vm_compute. reflexivity. Qed.

Print Assumptions C148_history.
Print Assumptions C148_conservative.
Print Assumptions C148_refused_exactly.
Print Assumptions C148_counters.
Print Assumptions C148_never_shared.
Print Assumptions C148_stops_refuted.
Print Assumptions C148_lost_refuted.
