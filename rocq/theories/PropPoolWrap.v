(** Property C149: giving back an entry of a MemoryPool twice, compiled without assertions. *)
From Verif Require Import CellProofs BitsetSpec BitsetBits BitsetProofs BitsetFind VectorCopy PoolProofs PoolExcessSpec PoolExcess PoolWrapSpec PoolWrapModel PoolWrap.
Open Scope nat_scope.

(** [p] is a pool after a history in which entries that are not held may have been given back with NoDestruction. *)
Definition wx_reached {A} stride bs (p : @wpool A) (st : list (row A)) : Prop :=
  exists at0 p0 ops rs ptrs, wpool_new bs at0 = Done p0 /\ wpool_run stride p0 ops = Done (p, ptrs) /\ wx_run bs [(repeat Vacant bs, 0)] ops = Done (st, rs).

Lemma wx_reached_rep {A} stride bs (p : @wpool A) st : 0 < bs -> wx_reached stride bs p st -> wrep bs p st.
Proof.
  intros HB (at0 & p0 & ops & rs & ptrs & E0 & ER & ES). destruct (@wnew_d A bs at0) as (q & Eq & R). rewrite E0 in Eq. injection Eq as <-.
  destruct (wrun_d stride bs HB ops p0 _ _ _ R ES) as (p' & ptrs' & E' & R' & _). rewrite ER in E'. injection E' as <- _. exact R'.
Qed.

(** Every history of this kind goes as specified, with the same indices, also Clear with blocks of one entry. *)
Theorem C149_history : forall (A : Type) stride bs at0 (ops : list (pop A)) st rs, 0 < bs -> wx_run bs [(repeat Vacant bs, 0)] ops = Done (st, rs) ->
  exists p0 p ptrs, wpool_new bs at0 = Done p0 /\ wpool_run stride p0 ops = Done (p, ptrs) /\ map (option_map fst) ptrs = rs /\ wx_reached stride bs p st.
Proof.
  intros A stride bs at0 ops st rs HB E. destruct (@wnew_d A bs at0) as (p0 & E0 & R). destruct (wrun_d stride bs HB ops p0 _ _ _ R E) as (p & ptrs & EP & _ & M).
  exists p0, p, ptrs. split; [exact E0|]. split; [exact EP|]. split; [exact M|]. exists at0, p0, ops, rs, ptrs. auto.
Qed.

(** What ends with assertions (C148) ends alike without them. *)
Definition sane {A} bs (x : row A) : Prop := length (fst x) = bs /\ snd x <= sp_count (fst x).
Lemma sane_believed {A} bs (x : row A) : (Z.of_nat bs < 2 ^ 64)%Z -> sane bs x -> wbelieved x = Z.of_nat (believed x).
Proof. intros HB (L & D). pose proof (count_le (fst x)). unfold wbelieved, believed. rewrite Z.mod_small; lia. Qed.
Lemma sane_put {A} bs (st : list (row A)) i x y m : 0 < bs -> Forall (sane bs) st -> ex_slot bs st i = Some x -> m + (if held x then 1 else 0) <= ex_believed bs st i + (if held y then 1 else 0) -> Forall (sane bs) (ex_put bs st i y m).
Proof.
  intros HB F E M. unfold ex_slot, ex_put, ex_believed in *. destruct (nth_error st (i / bs)) as [[s d]|] eqn:N; [|discriminate]. apply Forall_upd; [exact F|]. rewrite Forall_forall in F. destruct (F _ (nth_error_In _ _ N)) as (L & D). cbn [fst snd] in *.
  pose proof (count_upd bs s (i mod bs) x y E) as C. unfold believed in M. cbn [fst snd] in M. split; cbn [fst snd]; [now rewrite upd_length|]. destruct (held x), (held y); lia.
Qed.
Lemma sane_take {A} bs (x : slot A) : (Z.of_nat bs < 2 ^ 64)%Z -> 0 < bs -> held x = true -> forall st j st' i, Forall (sane bs) st -> ex_take bs st x j = Done (st', i) -> wx_take bs st x j = Done (st', i) /\ Forall (sane bs) st'.
Proof.
  intros HW HB HX. induction st as [|[s d] st IH]; intros j st' i F E; cbn [ex_take wx_take] in *.
  - injection E as <- <-. split; [reflexivity|]. constructor; [|constructor]. split; cbn [fst snd length]; [rewrite repeat_length|]; lia.
  - pose proof (Forall_inv F) as S1. pose proof (Forall_inv_tail F) as S2. rewrite (sane_believed bs) by auto. replace (Z.of_nat (believed (s, d)) =? Z.of_nat bs)%Z with (believed (s, d) =? bs) by (destruct (Nat.eqb_spec (believed (s, d)) bs); symmetry; [apply Z.eqb_eq | apply Z.eqb_neq]; lia).
    destruct (believed (s, d) =? bs).
    + destruct (ex_take bs st x (S j)) as [[r' k]|] eqn:T; [|discriminate]. cbn [bind] in E. injection E as <- <-. destruct (IH _ _ _ S2 T) as (-> & F'). split; [reflexivity | now constructor].
    + destruct (first_vacant s) as [k|] eqn:V; [|discriminate]. injection E as <- <-. split; [reflexivity|]. constructor; [|exact S2]. destruct S1 as (L & D). cbn [fst snd] in *. destruct (first_vacant_some bs _ _ V) as (Hk & Vk & _).
      pose proof (count_upd bs s k _ x Vk) as C. rewrite HX in C. cbn in C. split; cbn [fst snd]; [now rewrite upd_length | lia].
Qed.
Theorem C149_conservative : forall (A : Type) bs (ops : list (pop A)) st rs, 0 < bs -> (Z.of_nat bs < 2 ^ 64)%Z ->
  ex_run bs [(repeat Vacant bs, 0)] ops = Done (st, rs) -> wx_run bs [(repeat Vacant bs, 0)] ops = Done (st, rs).
Proof.
  intros A bs ops st rs HB HW.
  assert (G : forall ops st0 st rs, Forall (sane bs) st0 -> @ex_run A bs st0 ops = Done (st, rs) -> wx_run bs st0 ops = Done (st, rs)).
  { clear ops st rs. induction ops as [|o ops IH]; intros st0 st rs F E; cbn [ex_run wx_run] in *; [exact E|]. destruct (ex_apply bs st0 o) as [[st1 r]|] eqn:E1; [|discriminate]. cbn [bind] in E.
    enough (S1 : wx_apply bs st0 o = Done (st1, r) /\ Forall (sane bs) st1). { destruct S1 as (-> & F1). cbn [bind]. destruct (ex_run bs st1 ops) as [[st2 rs2]|] eqn:E2; [|discriminate]. rewrite (IH _ _ _ F1 E2). exact E. }
    clear IH E. destruct o; cbn [ex_apply wx_apply] in *.
    - destruct (ex_take bs st0 (Live a) 0) as [[l i]|] eqn:T; [|discriminate]. destruct (sane_take bs (Live a) HW HB eq_refl _ _ _ _ F T) as (-> & F'). cbn [bind] in *. injection E1 as <- <-. auto.
    - destruct (ex_take bs st0 Deferred 0) as [[l i]|] eqn:T; [|discriminate]. destruct (sane_take bs Deferred HW HB eq_refl _ _ _ _ F T) as (-> & F'). cbn [bind] in *. injection E1 as <- <-. auto.
    - destruct (ex_slot bs st0 i) as [[| |]|] eqn:S1; try discriminate. injection E1 as <- <-. split; [reflexivity|]. apply (sane_put bs st0 i Deferred); auto. cbn. lia.
    - destruct (ex_slot bs st0 i) as [[| |b]|] eqn:S1; try discriminate. injection E1 as <- <-. split; [reflexivity|]. apply (sane_put bs st0 i (Live b)); auto. cbn. lia.
    - destruct (ex_slot bs st0 i) as [[| |b]|] eqn:S1; try discriminate. destruct (Nat.eqb_spec (ex_believed bs st0 i) 0) as [Z|NZ]; [discriminate|]. injection E1 as <- <-. split; [reflexivity|]. apply (sane_put bs st0 i (Live b)); auto. cbn. lia.
    - destruct (ex_slot bs st0 i) as [[| |b]|] eqn:S1; try discriminate; (destruct (Nat.eqb_spec (ex_believed bs st0 i) 0) as [Z|NZ]; [discriminate|]); injection E1 as <- <-; (split; [reflexivity|]);
        [apply (sane_put bs st0 i Vacant) | apply (sane_put bs st0 i Deferred)]; auto; cbn; lia.
    - destruct (forallb _ st0) eqn:C; [|discriminate]. injection E1 as <- <-. split; [|constructor]. replace (forallb (fun x => (wbelieved x =? 0)%Z || sp_settled (fst x)) st0) with true; [reflexivity|]. symmetry. rewrite forallb_forall in *. intros x I. specialize (C x I). rewrite Forall_forall in F.
      rewrite (sane_believed bs x HW (F x I)). apply orb_true_iff in C. apply orb_true_iff. destruct C as [C|C]; [left | now right]. apply Nat.eqb_eq in C. apply Z.eqb_eq. lia. }
  apply G. constructor; [|constructor]. split; cbn [fst snd]; [apply repeat_length | lia].
Qed.

(** Refuted: no such return is ever noticed; the number of allocated entries that the pool reports is one less, modulo 2^64. *)
Theorem C149_unnoticed_refuted : forall (A : Type) stride bs (p : @wpool A) st i, 0 < bs -> wx_reached stride bs p st -> ex_slot bs st i = Some Vacant ->
  exists p', wFree_nodestruction p i = Done p' /\ wx_reached stride bs p' (ex_put bs st i Vacant 1) /\ map wmemory (w_blocks p') = map wmemory (w_blocks p).
Proof.
  intros A stride bs p st i HB R0 S1. pose proof (wx_reached_rep _ _ _ _ HB R0) as R. destruct (wrelease_d bs HB p st i Vacant R S1 eq_refl) as (p' & E & _ & M). exists p'. split; [exact E|]. split; [|exact M].
  destruct R0 as (at0 & p0 & ops & rs & ptrs & E0 & ER & ES). exists at0, p0, (ops ++ [PFreeNoDestruction i]), (rs ++ [None]), (ptrs ++ [None]). split; [exact E0|]. split.
  - enough (G : forall ops q ptrs, wpool_run stride q ops = Done (p, ptrs) -> wpool_run stride q (ops ++ [PFreeNoDestruction i]) = Done (p', ptrs ++ [None])) by (apply G; exact ER). clear - E. induction ops as [|o ops IH]; intros q ptrs H; cbn [wpool_run app] in *.
    + injection H as -> <-. cbn [wpool_apply]. unfold wFree_nodestruction. rewrite E. reflexivity.
    + destruct (wpool_apply stride q o) as [[q1 r]|]; [|discriminate]. cbn [bind] in *. destruct (wpool_run stride q1 ops) as [[q2 rs]|] eqn:H2; [|discriminate]. cbn [bind] in H. injection H as -> <-. rewrite (IH _ _ H2). reflexivity.
  - enough (G : forall ops l rs, wx_run bs l ops = Done (st, rs) -> wx_run bs l (ops ++ [PFreeNoDestruction i]) = Done (ex_put bs st i Vacant 1, rs ++ [None])) by (apply G; exact ES). clear - S1. induction ops as [|o ops IH]; intros l rs H; cbn [wx_run app] in *.
    + injection H as -> <-. cbn [wx_apply]. rewrite S1. reflexivity.
    + destruct (wx_apply bs l o) as [[q1 r]|]; [|discriminate]. cbn [bind] in *. destruct (wx_run bs q1 ops) as [[q2 rs2]|] eqn:H2; [|discriminate]. cbn [bind] in H. injection H as -> <-. rewrite (IH _ _ H2). reflexivity.
Qed.
Theorem C149_counters : forall (A : Type) stride bs (p : @wpool A) st, 0 < bs -> wx_reached stride bs p st ->
  wGetAllocatedEntryCount p = ((Z.of_nat (ex_held st) - Z.of_nat (ex_excess st)) mod 2 ^ 64)%Z /\
  wGetFreeEntryCount p = ((Z.of_nat (length st * bs) - Z.of_nat (ex_held st) + Z.of_nat (ex_excess st)) mod 2 ^ 64)%Z.
Proof.
  intros A stride bs p st HB R0. pose proof (wx_reached_rep _ _ _ _ HB R0) as R. pose proof (wcount_d bs HB p st R) as C. split; [exact C|]. unfold wGetFreeEntryCount. rewrite C. destruct R as (-> & H). rewrite (Forall2_len _ _ _ H). unfold size_t. rewrite Zminus_mod_idemp_r. f_equal. lia.
Qed.

(** When a row is believed full or empty. *)
Lemma believed_full {A} bs (s : list (slot A)) d : length s = bs -> (Z.of_nat d + Z.of_nat bs < 2 ^ 64)%Z -> (wbelieved (s, d) = Z.of_nat bs <-> first_vacant s = None /\ d = 0).
Proof.
  intros L D. unfold wbelieved. cbn [fst snd]. pose proof (count_le s) as C. pose proof (count_full s) as F. rewrite L in *. destruct (Z.lt_ge_cases (Z.of_nat (sp_count s)) (Z.of_nat d)) as [N|N].
  - replace (Z.of_nat (sp_count s) - Z.of_nat d)%Z with (Z.of_nat (sp_count s) - Z.of_nat d + 2 ^ 64 + (-1) * 2 ^ 64)%Z by lia. rewrite Z_mod_plus_full, Z.mod_small by lia. split; [lia|]. intros (V & ->). lia.
  - rewrite Z.mod_small by lia. destruct (first_vacant s); [apply Nat.eqb_neq in F; split; [lia | intros (V & _); discriminate] | apply Nat.eqb_eq in F; split; [intros Q; split; [reflexivity | lia] | intros (_ & ->); lia]].
Qed.
(** Refuted: an allocation is undefined exactly when it comes to a block that is full and has a return too many. *)
Theorem C149_undefined_exactly : forall (A : Type) stride bs (p : @wpool A) st at_, 0 < bs -> wx_reached stride bs p st -> Forall (fun x => (Z.of_nat (snd x) + Z.of_nat bs < 2 ^ 64)%Z) st ->
  (wAllocate_defer stride p at_ = Fault FUB <-> exists before s d after, st = before ++ (s, S d) :: after /\ first_vacant s = None /\ Forall (fun x => first_vacant (fst x) = None /\ snd x = 0) before).
Proof.
  intros A stride bs p st at_ HB R0 HD. pose proof (wx_reached_rep _ _ _ _ HB R0) as R. pose proof (walloc_d stride bs HB p st at_ R) as D.
  assert (L : Forall (fun x : row A => length (fst x) = bs) st). { destruct R as (_ & H). clear - H. induction H as [|b x l st (HL & _) H IH]; constructor; auto. }
  assert (T : forall j, wx_take bs st Deferred j = Fault FUB <-> exists before s d after, st = before ++ (s, S d) :: after /\ first_vacant s = None /\ Forall (fun x => first_vacant (fst x) = None /\ snd x = 0) before).
  { clear D R R0. induction st as [|[s d] st IH]; intros j; cbn [wx_take].
    - split; [discriminate|]. intros (bf & s & d & af & E & _). destruct bf; discriminate.
    - pose proof (Forall_inv HD) as D1. pose proof (Forall_inv L) as L1. cbn [fst snd] in *. pose proof (believed_full bs s d L1 D1) as BF. destruct (Z.eqb_spec (wbelieved (s, d)) (Z.of_nat bs)) as [E|E].
      + apply BF in E. destruct E as (V & ->). specialize (IH (Forall_inv_tail HD) (Forall_inv_tail L) (S j)). split.
        * intros H. destruct (wx_take bs st Deferred (S j)) as [[]|f] eqn:T; [discriminate|]. cbn [bind] in H. destruct (proj1 IH H) as (bf & s' & d' & af & -> & V' & F). exists ((s, 0) :: bf), s', d', af. split; [reflexivity|]. split; [exact V'|]. constructor; auto.
        * intros (bf & s' & d' & af & Q & V' & F). destruct bf as [|y bf]; [discriminate|]. injection Q as -> Q. rewrite (proj2 IH); [reflexivity|]. exists bf, s', d', af. split; [exact Q|]. split; [exact V' | exact (Forall_inv_tail F)].
      + destruct (first_vacant s) as [k|] eqn:V; split; try discriminate.
        * intros (bf & s' & d' & af & Q & V' & F). destruct bf as [|y bf]; injection Q as Q1 Q2; [congruence|]. subst y. destruct (Forall_inv F) as (W & _). cbn [fst] in W. congruence.
        * intros _. destruct d as [|d]; [exfalso; apply E, BF; auto|]. exists [], s, d, st. auto.
        * auto. }
  rewrite <- (T 0). destruct (wx_take bs st Deferred 0) as [[st' i]|f] eqn:E; [destruct D as (p' & e & -> & _) | destruct D as (-> & -> & _)]; split; auto; discriminate.
Qed.

(** What stays true: an entry that is handed out was not held, and the other entries keep what they are. *)
Theorem C149_never_shared : forall (A : Type) bs (st st' : list (row A)) x i, 0 < bs -> Forall (fun y => length (fst y) = bs) st -> wx_take bs st x 0 = Done (st', i) ->
  (ex_slot bs st i = Some Vacant \/ ex_slot bs st i = None) /\ ex_slot bs st' i = Some x /\ (forall k y, k <> i -> ex_slot bs st k = Some y -> ex_slot bs st' k = Some y) /\ ex_excess st' = ex_excess st.
Proof.
  intros A bs st st' x i HB HL E.
  assert (G : forall st j st' i, Forall (fun y => length (fst y) = bs) st -> @wx_take A bs st x j = Done (st', i) ->
    (exists m s d k, nth_error st m = Some (s, d) /\ first_vacant s = Some k /\ i = (j + m) * bs + k /\ st' = upd st m (upd s k x, d)) \/ (i = (j + length st) * bs /\ st' = st ++ [(x :: repeat Vacant (bs - 1), 0)])).
  { clear st st' i HL E. induction st as [|[s d] st IH]; intros j st' i HL E; cbn [wx_take] in E.
    - injection E as <- <-. right. cbn [length app]. split; [f_equal; lia | reflexivity].
    - assert (L2 : Forall (fun y => length (fst y) = bs) st) by (now inversion HL). destruct (wbelieved (s, d) =? Z.of_nat bs)%Z.
      + destruct (wx_take bs st x (S j)) as [[st1 i1]|] eqn:T; [|discriminate]. cbn [bind] in E. injection E as <- <-. destruct (IH _ _ _ L2 T) as [(m & s' & d' & k & N & V & -> & ->)|(-> & ->)].
        * left. exists (S m), s', d', k. split; [exact N|]. split; [exact V|]. split; [f_equal; f_equal; lia | reflexivity].
        * right. cbn [length app]. split; [f_equal; lia | reflexivity].
      + destruct (first_vacant s) as [k|] eqn:V; [|discriminate]. injection E as <- <-. left. exists 0, s, d, k. rewrite Nat.add_0_r. auto. }
  assert (SE : forall (f : row A -> nat) m y z, nth_error st m = Some y -> f z = f y -> list_sum (map f (upd st m z)) = list_sum (map f st)).
  { intros f m y z. clear. revert m. induction st as [|w st IH]; intros [|m] E F; try discriminate; cbn [nth_error upd map] in *; unfold list_sum in *; cbn [fold_right] in *; [injection E as ->; lia | specialize (IH m E F); lia]. }
  destruct (G st 0 st' i HL E) as [(m & s & d & k & N & V & -> & ->)|(-> & ->)]; cbn [Nat.add].
  - assert (L : length s = bs) by (rewrite Forall_forall in HL; exact (HL _ (nth_error_In _ _ N))). destruct (first_vacant_some bs _ _ V) as (Hk & Vk & _). rewrite L in Hk. destruct (div_row bs HB m k Hk) as (D1 & D2).
    assert (N' : nth_error (upd st m (upd s k x, d)) m = Some (upd s k x, d)) by (rewrite nth_error_upd, Nat.eqb_refl; replace (m <? length st) with true; [reflexivity|]; symmetry; apply Nat.ltb_lt, nth_error_Some; congruence).
    unfold ex_slot. rewrite D1, D2, N, N'. split; [left; exact Vk|]. split; [rewrite nth_error_upd, Nat.eqb_refl; now replace (k <? length s) with true by lia|]. split.
    + intros q y Hq Ey. destruct (Nat.eq_dec (q / bs) m) as [Q|Q].
      * rewrite Q in *. rewrite N in Ey. rewrite N', nth_error_upd. destruct (Nat.eqb_spec (q mod bs) k) as [K|K]; [|exact Ey]. exfalso. apply Hq. pose proof (Nat.div_mod_eq q bs). lia.
      * rewrite nth_error_upd. destruct (Nat.eqb_spec (q / bs) m); [contradiction | exact Ey].
    + unfold ex_excess. apply (SE snd m (s, d)); auto.
  - destruct (div_row bs HB (length st) 0 HB) as (D1 & D2). rewrite Nat.add_0_r in D1, D2. unfold ex_slot. rewrite D1, D2. rewrite (proj2 (nth_error_None st (length st))) by lia. split; [now right|].
    rewrite nth_error_app2, Nat.sub_diag by lia. split; [reflexivity|]. split.
    + intros q y _ Ey. destruct (nth_error st (q / bs)) as [z|] eqn:Z; [|discriminate]. rewrite nth_error_app1 by (apply nth_error_Some; congruence). now rewrite Z.
    + unfold ex_excess, list_sum. rewrite map_app, fold_right_app. reflexivity.
Qed.

(** Refuted: a block with a return too many brings about undefined behaviour after at most as many allocations as entries are free, and no block is added before. *)
Theorem C149_stops_refuted : forall (A : Type) stride bs (p : @wpool A) st at_, 0 < bs -> wx_reached stride bs p st -> Exists (fun x => 0 < snd x /\ (Z.of_nat (snd x) + Z.of_nat bs < 2 ^ 64)%Z) st ->
  exists n p' ptrs, n <= length (w_blocks p) * bs - ex_held st /\ wpool_run stride p (repeat (PDefer at_) n) = Done (p', ptrs) /\ length (w_blocks p') = length (w_blocks p) /\ forall at', wAllocate_defer stride p' at' = Fault FUB.
Proof.
  intros A stride bs p st at_ HB R0 X. pose proof (wx_reached_rep _ _ _ _ HB R0) as R. clear R0. rewrite (Forall2_len _ _ _ (proj2 R)).
  remember (length st * bs - ex_held st) as m eqn:M. revert p st R X M. induction m as [m IH] using lt_wf_ind. intros p st R X M.
  pose proof (walloc_d stride bs HB p st) as D. pose proof R as (HB' & H). destruct (wroom_cases bs _ _ H 0) as [(F & T)|[(j & s & d & k & F & Es & V & T)|(F & T)]].
  - exists 0, p, []. split; [lia|]. split; [reflexivity|]. split; [exact (Forall2_len _ _ _ H)|]. intros at'. specialize (D at' R). rewrite T in D. apply D.
  - specialize (D at_ R). rewrite T in D. destruct D as (p1 & e & E1 & R1 & _ & _). cbn [Nat.add] in *. set (st1 := upd st j (upd s k Deferred, d)) in *.
    assert (L1 : length st1 = length st) by apply upd_length. destruct (Forall2_nth _ _ _ _ _ H Es) as (b & _ & (HL & _)). cbn [fst] in HL. destruct (first_vacant_some bs _ _ V) as (Hk & Vk & _).
    assert (C : ex_held st1 = S (ex_held st)).
    { unfold st1, ex_held, list_sum. pose proof (count_upd bs s k _ Deferred Vk) as CU. cbn in CU. clear - Es CU. revert j Es. induction st as [|z st IH]; intros [|j] E; try discriminate; cbn [nth_error upd map fold_right] in *; [injection E as ->; cbn [fst]; lia | rewrite (IH j E); lia]. }
    assert (LE : ex_held st1 <= length st1 * bs). { destruct R1 as (_ & H1). clear - H1. unfold ex_held, list_sum. induction H1 as [|b x l st1 (HL & _) H1 IH]; cbn [map fold_right length Nat.mul]; [lia|]. pose proof (count_le (fst x)). lia. }
    assert (X1 : Exists (fun x => 0 < snd x /\ (Z.of_nat (snd x) + Z.of_nat bs < 2 ^ 64)%Z) st1).
    { unfold st1. clear - X Es. revert j Es. induction X as [x st X|x st X IH]; intros [|j] E; cbn [nth_error upd] in *; try (now constructor); [injection E as ->; now constructor | constructor 2; now apply IH]. }
    destruct (IH (length st1 * bs - ex_held st1) ltac:(lia) p1 st1 R1 X1 eq_refl) as (n & p2 & ptrs & Hn & E2 & B2 & U). exists (S n), p2, (Some (j * bs + k, e) :: ptrs). split; [lia|]. split.
    + cbn [repeat wpool_run wpool_apply]. rewrite E1. cbn [bind]. rewrite E2. reflexivity.
    + split; [|exact U]. rewrite B2. exact L1.
  - exfalso. clear D IH M. assert (Q : wx_take bs st Deferred 0 = Done (st ++ [(Deferred :: repeat Vacant (bs - 1), 0)], (0 + length st) * bs)) by apply T. clear F T.
    assert (G : forall l j0 i, Forall (fun x : row A => length (fst x) = bs) st -> wx_take bs st Deferred j0 = Done (l, i) -> length l <> S (length st)).
    { clear - X HB. induction X as [[s d] st (D0 & D1)|[s d] st X IH]; intros l j0 i L E; cbn [wx_take] in E; pose proof (Forall_inv L) as L1; cbn [fst snd] in *.
      - destruct (Z.eqb_spec (wbelieved (s, d)) (Z.of_nat bs)) as [Q|Q]; [apply (believed_full bs s d L1 D1) in Q; lia|]. destruct (first_vacant s); [|discriminate]. injection E as <- <-. cbn [length]. lia.
      - destruct (wbelieved (s, d) =? Z.of_nat bs)%Z.
        + destruct (wx_take bs st Deferred (S j0)) as [[l' i']|] eqn:T; [|discriminate]. cbn [bind] in E. injection E as <- <-. pose proof (IH _ _ _ (Forall_inv_tail L) T). cbn [length]. lia.
        + destruct (first_vacant s); [|discriminate]. injection E as <- <-. cbn [length]. lia. }
    refine (G _ _ _ _ Q _); [|rewrite app_length; cbn; lia]. clear - H. induction H as [|b x l st (HL & _) H IH]; constructor; auto.
Qed.

(** Refuted: Clear and the destructor leave out a block with as many returns too many as entries held (modulo 2^64); the objects in it are never destroyed. *)
Theorem C149_lost_refuted : forall (A : Type) stride bs (p : @wpool A) st, 0 < bs -> wx_reached stride bs p st ->
  Forall (fun x => (Z.of_nat (sp_count (fst x)) - Z.of_nat (snd x)) mod 2 ^ 64 = 0 \/ sp_settled (fst x) = true)%Z st ->
  exists dropped, wClear p = Done (WP bs [], dropped) /\ wpool_destroy p = Done dropped /\
  map wmemory dropped = map (fun x => if ((Z.of_nat (sp_count (fst x)) - Z.of_nat (snd x)) mod 2 ^ 64 =? 0)%Z then map (fun y => match y with Live a => Obj (Some a) | _ => Raw end) (fst x) else repeat Raw bs) st.
Proof.
  intros A stride bs p st HB R0 HF. pose proof (wx_reached_rep _ _ _ _ HB R0) as R. pose proof R as (HBp & H).
  assert (C : forallb (fun x : row A => (wbelieved x =? 0)%Z || sp_settled (fst x)) st = true).
  { rewrite forallb_forall. rewrite Forall_forall in HF. intros x I. destruct (HF x I) as [E|E]; apply orb_true_iff; [left; now apply Z.eqb_eq | now right]. }
  destruct (wreset_d bs HB _ _ H C) as (l & E & M). exists l. unfold wClear, wpool_destroy. rewrite E. cbn [bind]. rewrite HBp. split; [reflexivity|]. split; [reflexivity|]. exact M.
Qed.

(** Refuted: begin() is undefined exactly when the first block that is not believed empty holds nothing. *)
Theorem C149_begin_exactly : forall (A : Type) stride bs (p : @wpool A) st, 0 < bs -> wx_reached stride bs p st ->
  (wbegin p = Fault FUB <-> exists before s d after, st = before ++ (s, d) :: after /\ sp_count s = 0 /\ (Z.of_nat d mod 2 ^ 64 <> 0)%Z /\ Forall (fun x => (Z.of_nat (sp_count (fst x)) - Z.of_nat (snd x)) mod 2 ^ 64 = 0)%Z before).
Proof.
  intros A stride bs p st HB R0. pose proof (wx_reached_rep _ _ _ _ HB R0) as (_ & H). clear R0. unfold wbegin. generalize 0 at 1 as j.
  assert (Z0 : forall (s : list (slot A)) d, sp_count s = 0 -> wbelieved (s, d) <> 0%Z -> (Z.of_nat d mod 2 ^ 64 <> 0)%Z).
  { intros s d C B Q. apply B. unfold wbelieved. cbn [fst snd]. rewrite C. change (Z.of_nat 0 - Z.of_nat d)%Z with (- Z.of_nat d)%Z. apply Z_mod_zero_opp_full. exact Q. }
  assert (Z1 : forall (s : list (slot A)) d, sp_count s = 0 -> (Z.of_nat d mod 2 ^ 64 <> 0)%Z -> wbelieved (s, d) <> 0%Z).
  { intros s d C B Q. apply B. unfold wbelieved in Q. cbn [fst snd] in Q. rewrite C in Q. change (Z.of_nat 0 - Z.of_nat d)%Z with (- Z.of_nat d)%Z in Q. rewrite <- (Z.opp_involutive (Z.of_nat d)). apply Z_mod_zero_opp_full. exact Q. }
  induction H as [|b [s d] l st Hb H IH]; intros j; cbn [wfirst_allocated].
  - split; [discriminate|]. intros (bf & s & d & af & E & _). destruct bf; discriminate.
  - pose proof Hb as (HL & HC & HM & HF & HO). cbn [fst snd] in *. rewrite HC. destruct (Z.eqb_spec (wbelieved (s, d)) 0) as [E|E].
    + rewrite (IH (j + 1)). split.
      * intros (bf & s' & d' & af & -> & C & D & F). exists ((s, d) :: bf), s', d', af. split; [reflexivity|]. split; [exact C|]. split; [exact D|]. constructor; auto.
      * intros (bf & s' & d' & af & Q & C & D & F). destruct bf as [|y bf]; injection Q as Q1 Q2; [subst s' d'; exfalso; exact (Z1 s d C D E)|]. exists bf, s', d', af. split; [exact Q2|]. split; [exact C|]. split; [exact D | exact (Forall_inv_tail F)].
    + rewrite (FindFirst_repr 64 _ _ HO).
      assert (K : s_find (map held s) 0 = None <-> sp_count s = 0).
      { unfold s_find. rewrite map_length, Nat.sub_0_r. split.
        - intros N. destruct (sp_count s) as [|c] eqn:C; [reflexivity|]. exfalso. unfold sp_count in C. destruct (filter held s) as [|x f] eqn:FE; [discriminate|]. assert (I : In x (filter held s)) by (rewrite FE; now left). apply filter_In in I. destruct I as (I & HX).
          destruct (In_nth_error _ _ I) as (i & Ei). assert (LI : i < length s) by (apply nth_error_Some; congruence). pose proof (find_none _ _ N i) as Q. rewrite in_seq in Q. specialize (Q ltac:(lia)). unfold sbit in Q. rewrite (nth_error_nth _ _ _ (map_nth_error held _ _ Ei)) in Q. congruence.
        - intros C. destruct (find _ _) as [i|] eqn:FI; [|reflexivity]. exfalso. apply find_some in FI. destruct FI as (I & Q). apply in_seq in I. unfold sbit in Q. destruct (nth_error s i) as [x|] eqn:Ei; [|apply nth_error_None in Ei; lia].
          rewrite (nth_error_nth _ _ _ (map_nth_error held _ _ Ei)) in Q. pose proof (count_pos bs s i x Ei Q). lia. }
      destruct (s_find (map held s) 0) as [k|].
      * split; [discriminate|]. intros (bf & s' & d' & af & Q & C & D & F). exfalso. destruct bf as [|y bf]; injection Q as Q1 Q2; [subst s'; apply K in C; discriminate|]. subst y. exact (E (Forall_inv F)).
      * split; [|reflexivity]. intros _. assert (C : sp_count s = 0) by now apply K. exists [], s, d, st. split; [reflexivity|]. split; [exact C|]. split; [exact (Z0 s d C E) | constructor].
Qed.

(** A pool of blocks of two: an entry of the new pool is given back. The pool then reports 2^64 - 1 entries, its begin() is undefined, two entries can be allocated, and the third allocation is undefined. *)
Definition early : list (pop nat) := [PFreeNoDestruction 1].
Example C149_ex_early : wx_run 2 [(repeat Vacant 2, 0)] early = Done ([([Vacant; Vacant], 1)], [None]).
Proof. reflexivity. Qed.
Example C149_ex_count : (p <- wpool_new 2 0 ;; ' (p, _) <- wpool_run 8 p early ;; Done (wGetAllocatedEntryCount p, wGetFreeEntryCount p)) = Done (2 ^ 64 - 1, 3)%Z.
Proof. vm_compute. reflexivity. Qed.
Example C149_ex_begin : (p <- wpool_new 2 0 ;; ' (p, _) <- wpool_run 8 p early ;; wbegin p) = Fault FUB.
Proof. vm_compute. reflexivity. Qed.
Example C149_ex_stops : (p <- wpool_new 2 0 ;; ' (p, r) <- wpool_run 8 p (early ++ [PAlloc 5 0; PAlloc 6 0]) ;; Done (map (option_map fst) r, wAllocate_defer 8 p 100)) = Done ([None; Some 0; Some 1], Fault FUB).
Proof. vm_compute. reflexivity. Qed.
(** With one entry allocated and one returned too often, the pool is believed empty; Clear does not destroy the object. *)
Example C149_ex_lost : (p <- wpool_new 2 0 ;; ' (p, _) <- wpool_run 8 p (early ++ [PAlloc 5 0]) ;; ' (_, dropped) <- wClear p ;; Done (wGetAllocatedEntryCount p, map wmemory dropped)) = Done (0%Z, [[Obj (Some 5); Raw]]).
Proof. vm_compute. reflexivity. Qed.
(** Clear with blocks of one entry. *)
Example C149_ex_one : (p <- wpool_new 1 0 ;; ' (p, _) <- wpool_run 8 p [PAlloc 5 0; PAlloc 6 0] ;; ' (_, dropped) <- wClear p ;; Done (map wmemory dropped)) = Done [[Raw]; [Raw : cell nat]].
Proof. vm_compute. reflexivity. Qed.

Print Assumptions C149_history.
Print Assumptions C149_conservative.
Print Assumptions C149_unnoticed_refuted.
Print Assumptions C149_counters.
Print Assumptions C149_undefined_exactly.
Print Assumptions C149_never_shared.
Print Assumptions C149_stops_refuted.
Print Assumptions C149_lost_refuted.
Print Assumptions C149_begin_exactly.
