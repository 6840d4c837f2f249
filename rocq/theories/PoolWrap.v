(** MemoryPool without assertions: entries given back too often; the blocks are those of the specification, with counters modulo 2^64. *)
From Verif Require Import CellProofs BitsetSpec BitsetBits BitsetProofs BitsetFind VectorCopy BitsetReleaseModel BitsetRelease PoolModel PoolProofs PoolHistory PoolReleaseModel Release PoolRelease PoolExcessSpec PoolExcess PoolWrapSpec PoolWrapModel.
Open Scope nat_scope.

Section Pool.
Context {A : Type}.
Variable stride : N.
Variable bs : nat.
Hypothesis bs_pos : 0 < bs.
Implicit Types (s : list (slot A)) (st : list (row A)) (p : @wpool A).

Definition wblk (b : @wblock A) (x : row A) : Prop :=
  length (fst x) = bs /\ wcount b = wbelieved x /\ wmemory b = map cell_of (fst x) /\
  repr 64 (wfree b) (map vacant (fst x)) /\ repr 64 (woccupied b) (map held (fst x)).
Definition wrep p st : Prop := w_blockSize p = bs /\ Forall2 wblk (w_blocks p) st.

Lemma rSet_done (b : bitset) l i v : repr 64 b l -> i < length l -> exists c, rSet 64 b i v = Done c /\ repr 64 c (upd l i v).
Proof. intros R H. destruct (Set_done 64 b l i v R H) as (b' & E & R'). exists b'. split; [exact (kp_Set b i v _ E) | exact R']. Qed.

Lemma wroom_cases l st : Forall2 wblk l st -> forall j0,
  (wfind_room bs l j0 = Fault FUB /\ forall x, wx_take bs st x j0 = Fault FUB) \/
  (exists j s d k, wfind_room bs l j0 = Done (Some (j0 + j, k)) /\ nth_error st j = Some (s, d) /\ first_vacant s = Some k /\ forall x, wx_take bs st x j0 = Done (upd st j (upd s k x, d), (j0 + j) * bs + k)) \/
  (wfind_room bs l j0 = Done None /\ forall x, wx_take bs st x j0 = Done (st ++ [(x :: repeat Vacant (bs - 1), 0)], (j0 + length st) * bs)).
Proof.
  induction 1 as [|b [s d] l st Hb H IH]; intros j0.
  - right; right. split; [reflexivity|]. intros x. cbn. now rewrite Nat.add_0_r.
  - cbn [wfind_room wx_take]. pose proof Hb as (HL & HC & HM & HF & HO). rewrite HC. cbn [fst snd] in *. destruct (wbelieved (s, d) =? Z.of_nat bs)%Z eqn:E.
    + rewrite Nat.add_1_r. destruct (IH (S j0)) as [(F & T)|[(j & s' & d' & k & F & N & V & T)|(F & T)]].
      * left. split; [exact F|]. intros x. now rewrite T.
      * right; left. exists (S j), s', d', k. rewrite <- plus_n_Sm. split; [exact F|]. split; [exact N|]. split; [exact V|]. intros x. rewrite T. reflexivity.
      * right; right. split; [exact F|]. intros x. rewrite T. cbn [bind app length]. now rewrite <- plus_n_Sm.
    + rewrite (FindFirst_repr 64 _ _ HF), <- first_vacant_find. destruct (first_vacant s) as [k|] eqn:V.
      * right; left. exists 0, s, d, k. rewrite Nat.add_0_r. auto.
      * left. auto.
Qed.

Lemma wact p st j b b' x' : wrep p st -> nth_error (w_blocks p) j = Some b -> wblk b' x' ->
  exists l, vset (w_blocks p) j b' = Done l /\ wrep (WP bs l) (upd st j x').
Proof.
  intros (HB & H) Eb Hb'. rewrite vset_done by (apply nth_error_Some; congruence). eexists. split; [reflexivity|]. split; [reflexivity|]. cbn [w_blocks]. apply Forall2_upd; assumption.
Qed.

(** Counters: one more held, one less held or one more return too many. *)
Lemma shift (x : row A) k (y : row A) : (Z.of_nat (sp_count (fst y)) - Z.of_nat (snd y) = Z.of_nat (sp_count (fst x)) - Z.of_nat (snd x) + k)%Z -> size_t (wbelieved x + k) = wbelieved y.
Proof. intros E. unfold size_t, wbelieved. rewrite E, Z.add_mod_idemp_l; [reflexivity | discriminate]. Qed.

Lemma wblk_upd b s d i x y m f o c d' :
  wblk b (s, d) -> nth_error s i = Some x -> m = upd (wmemory b) i (cell_of y) -> repr 64 f (upd (map vacant s) i (vacant y)) -> repr 64 o (upd (map held s) i (held y)) ->
  c = wbelieved (upd s i y, d') -> wblk (WB (wbase b) c m f o) (upd s i y, d').
Proof.
  intros (HL & HC & HM & HF & HO) E Hm Hf Ho Hc. cbn [fst snd] in *. split; [cbn; now rewrite upd_length|]. cbn [wcount wmemory wfree woccupied fst snd].
  split; [exact Hc|]. split; [now rewrite Hm, HM, map_upd|]. rewrite !map_upd. auto.
Qed.

Lemma wslot_row p st i x : wrep p st -> ex_slot bs st i = Some x ->
  exists s d b, nth_error st (i / bs) = Some (s, d) /\ nth_error s (i mod bs) = Some x /\ nth_error (w_blocks p) (i / bs) = Some b /\ wblk b (s, d) /\ i mod bs < bs /\ length s = bs.
Proof.
  intros (HB & H) E. unfold ex_slot in E. destruct (nth_error st (i / bs)) as [[s d]|] eqn:Es; [|discriminate]. destruct (Forall2_nth _ _ _ _ _ H Es) as (b & Eb & Hb).
  exists s, d, b. pose proof Hb as (HL & _). repeat split; auto; try apply Hb. apply Nat.mod_upper_bound. lia.
Qed.

Lemma won_cell_d p st i x y f : wrep p st -> ex_slot bs st i = Some x -> held x = held y -> vacant x = vacant y ->
  (forall m k, nth_error m k = Some (cell_of x) -> f m k = Done (upd m k (cell_of y))) -> exists p', won_cell p i f = Done p' /\ wrep p' (ex_put bs st i y 0).
Proof.
  intros R E HH HV Hf. pose proof R as (HB & H). destruct (wslot_row p st i x R E) as (s & d & b & Es & Ex & Eb & Hb & Hm & HL). pose proof Hb as (_ & HC & HM & HF & HO). cbn [fst snd] in *.
  unfold won_cell, ex_put. rewrite Es, HB, (vget_some _ _ _ Eb). cbn [bind]. rewrite Hf by (rewrite HM; now apply map_nth_error). cbn [bind].
  assert (M : forall (g : slot A -> bool), g x = g y -> upd (map g s) (i mod bs) (g y) = map g s) by (intros g G; apply upd_id; rewrite <- G; now apply map_nth_error).
  destruct (wact p st (i / bs) b (WB (wbase b) (wcount b) (upd (wmemory b) (i mod bs) (cell_of y)) (wfree b) (woccupied b)) (upd s (i mod bs) y, d) R Eb) as (l & -> & Rp).
  - apply (wblk_upd b s d (i mod bs) x y); auto; [now rewrite M | now rewrite M |]. rewrite HC. unfold wbelieved. cbn [fst snd]. pose proof (count_upd bs s (i mod bs) x y Ex) as C. rewrite HH in C. do 3 f_equal. destruct (held y); lia.
  - cbn [bind]. eexists. split; [reflexivity | exact Rp].
Qed.

Lemma wrelease_d p st i x : wrep p st -> ex_slot bs st i = Some x -> cell_of x = Raw ->
  exists p', wrelease p i = Done p' /\ wrep p' (ex_put bs st i Vacant (if held x then 0 else 1)) /\ map wmemory (w_blocks p') = map wmemory (w_blocks p).
Proof.
  intros R E HR. pose proof R as (HB & H). destruct (wslot_row p st i x R E) as (s & d & b & Es & Ex & Eb & Hb & Hm & HL). pose proof Hb as (_ & HC & HM & HF & HO). cbn [fst snd] in *.
  unfold wrelease, ex_put. rewrite HB. replace (bs =? 0) with false by lia. cbn [negb require bind]. rewrite Es, (vget_some _ _ _ Eb). cbn [bind]. unfold rResetBit.
  destruct (rSet_done _ _ (i mod bs) true HF) as (f & -> & Rf); [rewrite map_length; lia|]. cbn [bind]. destruct (rSet_done _ _ (i mod bs) false HO) as (o & -> & Ro); [rewrite map_length; lia|]. cbn [bind].
  set (b' := WB (wbase b) (size_t (wcount b - 1)) (wmemory b) f o).
  destruct (wact p st (i / bs) b b' (upd s (i mod bs) Vacant, (if held x then 0 else 1) + d) R Eb) as (l & EV & Rp).
  - apply (wblk_upd b s d (i mod bs) x Vacant); auto.
    + rewrite HM. symmetry. apply upd_id. rewrite (map_nth_error _ _ _ Ex), HR. reflexivity.
    + rewrite HC. apply (shift (s, d) (-1)). cbn [fst snd]. pose proof (count_upd bs s (i mod bs) x Vacant Ex) as C. cbn [held vacant negb] in C. destruct (held x); lia.
  - rewrite EV. cbn [bind]. eexists. split; [reflexivity|]. split; [exact Rp|]. cbn [w_blocks]. rewrite vset_done in EV by (apply nth_error_Some; congruence). injection EV as <-. rewrite map_upd. apply upd_id. unfold b'. cbn [wmemory]. now apply map_nth_error.
Qed.

(** Marking a vacant entry as taken. *)
Lemma wtake_d p st j s d k : wrep p st -> nth_error st j = Some (s, d) -> nth_error s k = Some Vacant ->
  exists p' e, (b <- vget (w_blocks p) j ;;
   f <- rResetBit 64 (wfree b) k ;;
   o <- rSet 64 (woccupied b) k true ;;
   l <- vset (w_blocks p) j (WB (wbase b) (size_t (wcount b + 1)) (wmemory b) f o) ;;
   Done (WP (w_blockSize p) l, j * w_blockSize p + k, (wbase b + N.of_nat k * stride)%N)) = Done (p', j * bs + k, e) /\ wrep p' (upd st j (upd s k Deferred, d)).
Proof.
  intros R Es V. pose proof R as (HB & H). destruct (Forall2_nth _ _ _ _ _ H Es) as (b & Eb & Hb). pose proof Hb as (HL & HC & HM & HF & HO). cbn [fst snd] in *.
  assert (Hk : k < bs) by (rewrite <- HL; apply nth_error_Some; congruence). rewrite (vget_some _ _ _ Eb). cbn [bind]. unfold rResetBit.
  destruct (rSet_done _ _ k false HF) as (f & -> & Rf); [rewrite map_length; lia|]. cbn [bind]. destruct (rSet_done _ _ k true HO) as (o & -> & Ro); [rewrite map_length; lia|]. cbn [bind].
  destruct (wact p st j b (WB (wbase b) (size_t (wcount b + 1)) (wmemory b) f o) (upd s k Deferred, d) R Eb) as (l & -> & Rp).
  - apply (wblk_upd b s d k Vacant Deferred); auto.
    + rewrite HM. symmetry. apply upd_id. rewrite (map_nth_error _ _ _ V). reflexivity.
    + rewrite HC. apply (shift (s, d) 1). cbn [fst snd]. pose proof (count_upd bs s k Vacant Deferred V) as C. cbn in C. lia.
  - cbn [bind]. rewrite HB. do 2 eexists. split; [reflexivity | exact Rp].
Qed.

Lemma wblk_fresh at_ : exists f o, Resize 64 empty bs true = Done f /\ Resize 64 empty bs false = Done o /\ wblk (WB at_ 0 (repeat Raw bs) f o) (repeat Vacant bs, 0).
Proof.
  destruct (@blk_fresh A bs at_) as (f & o & Ef & Eo & (B1 & B2 & B3)). exists f, o. split; [exact Ef|]. split; [exact Eo|]. split; [exact B1|]. split; [|exact B3]. cbn [wcount occupiedEntryCount] in *. unfold wbelieved. cbn [fst snd]. rewrite <- B2. reflexivity.
Qed.

Lemma walloc_d p st at_ : wrep p st ->
  match wx_take bs st Deferred 0 with
  | Done (st', i) => exists p' e, wAllocate_defer stride p at_ = Done (p', i, e) /\ wrep p' st' /\ ex_slot bs st' i = Some Deferred /\ forall x, wx_take bs st x 0 = Done (ex_put bs st' i x 0, i)
  | Fault f => f = FUB /\ wAllocate_defer stride p at_ = Fault FUB /\ forall x, wx_take bs st x 0 = Fault FUB
  end.
Proof.
  intros R. pose proof R as (HB & H). unfold wAllocate_defer. rewrite HB. destruct (wroom_cases _ _ H 0) as [(F & T)|[(j & s & d & k & F & Es & V & T)|(F & T)]]; rewrite T, F; cbn [bind Nat.add].
  - auto.
  - destruct (Forall2_nth _ _ _ _ _ H Es) as (b & _ & (HL & _)). cbn [fst] in HL. destruct (first_vacant_some bs _ _ V) as (Hk & Vk & _). rewrite HL in Hk.
    destruct (wtake_d p st j s d k R Es Vk) as (p' & e & E & Rp). rewrite HB in E. rewrite HB, E. destruct (div_row bs bs_pos j k Hk) as (D1 & D2). exists p', e. split; [reflexivity|]. split; [exact Rp|].
    assert (N : nth_error (upd st j (upd s k Deferred, d)) j = Some (upd s k Deferred, d)).
    { rewrite nth_error_upd, Nat.eqb_refl. replace (j <? length st) with true; [reflexivity|]. symmetry. apply Nat.ltb_lt, nth_error_Some. congruence. }
    unfold ex_slot, ex_put. rewrite D1, D2, N. split.
    + rewrite nth_error_upd, Nat.eqb_refl. now replace (k <? length s) with true by lia.
    + intros x. rewrite T. cbn [Nat.add]. now rewrite !upd_upd.
  - assert (R1 : exists b, wAllocateBlock p at_ = Done (WP bs (w_blocks p ++ [b])) /\ wblk b (repeat Vacant bs, 0)).
    { destruct (wblk_fresh at_) as (f & o & Ef & Eo & B). unfold wAllocateBlock. rewrite HB, Ef, Eo. cbn [bind]. eexists. split; [reflexivity | exact B]. }
    destruct R1 as (b & Ea & Hb). rewrite Ea. cbn [bind w_blocks w_blockSize]. rewrite (Forall2_len _ _ _ H).
    assert (R2 : wrep (WP bs (w_blocks p ++ [b])) (st ++ [(repeat Vacant bs, 0)])) by (split; [reflexivity|]; cbn [w_blocks]; apply Forall2_app; [exact H | constructor; [exact Hb | constructor]]).
    assert (Es : nth_error (st ++ [(repeat (@Vacant A) bs, 0)]) (length st) = Some (repeat Vacant bs, 0)) by (rewrite nth_error_app2, Nat.sub_diag by lia; reflexivity).
    assert (Vk : nth_error (repeat (@Vacant A) bs) 0 = Some Vacant) by (destruct bs; [lia | reflexivity]).
    destruct (wtake_d _ _ (length st) _ 0 0 R2 Es Vk) as (p' & e & E & Rp). cbn [w_blocks w_blockSize] in E. rewrite E.
    assert (U : forall x, upd (st ++ [(repeat Vacant bs, 0)]) (length st) (upd (repeat (@Vacant A) bs) 0 x, 0) = st ++ [(x :: repeat Vacant (bs - 1), 0)]).
    { intros x. rewrite (upd_mid st [] _ _ (length st)) by reflexivity. destruct bs as [|k]; [lia|]. cbn [repeat upd]. now rewrite Nat.sub_succ, Nat.sub_0_r. }
    rewrite U in Rp. rewrite Nat.add_0_r. destruct (div_row bs bs_pos (length st) 0 bs_pos) as (D1 & D2). rewrite Nat.add_0_r in D1, D2.
    exists p', e. split; [reflexivity|]. split; [exact Rp|]. unfold ex_slot, ex_put. rewrite D1, D2.
    assert (N : nth_error (st ++ [(@Deferred A :: repeat Vacant (bs - 1), 0)]) (length st) = Some (Deferred :: repeat Vacant (bs - 1), 0)) by (rewrite nth_error_app2, Nat.sub_diag by lia; reflexivity).
    rewrite N. split; [reflexivity|]. intros x. rewrite T. cbn [Nat.add upd]. now rewrite (upd_mid st [] _ _ (length st)) by reflexivity.
Qed.

(** Clear: a row that is believed empty is left as it is. *)
Definition wx_wiped (x : row A) : list (cell A) := if (wbelieved x =? 0)%Z then map cell_of (fst x) else repeat Raw bs.
Lemma wreset_d l st : Forall2 wblk l st -> forallb (fun x => (wbelieved x =? 0)%Z || sp_settled (fst x)) st = true ->
  exists l', wreset_blocks l = Done l' /\ map wmemory l' = map wx_wiped st.
Proof.
  induction 1 as [|b x l st Hb H IH]; intros C; [exists []; split; reflexivity|]. cbn [forallb] in C. apply andb_prop in C. destruct C as (C1 & C2). destruct (IH C2) as (l' & E & M).
  cbn [wreset_blocks map]. unfold wreset_block. unfold wx_wiped at 1. pose proof Hb as (HL & HC & HM & HF & HO). rewrite HC. destruct (wbelieved x =? 0)%Z eqn:Z.
  - cbn [bind]. rewrite E. cbn [bind]. eexists. split; [reflexivity|]. cbn [map]. now rewrite HM, M.
  - cbn [orb] in C1. rewrite (Release.follows_done _ _ _ (fol_IterBits 64 (woccupied b)) (IterBits_repr 64 _ _ HO)). cbn [bind]. unfold s_positions. rewrite map_length.
    pose proof (destroy_held bs bs_pos (fst x) 0) as D. cbn [repeat app Nat.add] in D. rewrite (filter_ext _ (sbit (map held (fst x)))) in D by (intros; now rewrite Nat.sub_0_r).
    rewrite HM, D, C1. cbn [bind]. unfold rResetBit.
    assert (F1 : exists f, rSet 64 (wfree b) 1 false = Done f).
    { destruct (Nat.eq_dec bs 1) as [B1|B1]; [apply (rSet_one _ _ 1 HF); [rewrite map_length; lia | lia]|]. destruct (rSet_done _ _ 1 false HF) as (f & -> & _); [rewrite map_length; lia | eauto]. }
    destruct F1 as (f & ->). cbn [bind]. destruct (rSet_done _ _ 0 false HO) as (o & -> & Ro); [rewrite map_length; lia|]. cbn [bind]. rewrite E. cbn [bind]. eexists. split; [reflexivity|]. cbn [map wmemory]. now rewrite M, HL.
Qed.

Lemma wstep_d p st o st' r : wrep p st -> wx_apply bs st o = Done (st', r) -> exists p' e, wpool_apply stride p o = Done (p', e) /\ wrep p' st' /\ option_map fst e = r.
Proof.
  intros R E. pose proof R as (HB & H). destruct o; cbn [wx_apply wpool_apply] in *.
  - pose proof (walloc_d p st at_ R) as D. unfold wAllocate. destruct (wx_take bs st Deferred 0) as [[st1 i]|f] eqn:T1.
    + destruct D as (p1 & e & -> & R1 & S1 & T). rewrite T in E. cbn [bind] in *. injection E as <- <-. destruct (won_cell_d p1 st1 i Deferred (Live a) (fun m k => construct m k (Some a)) R1 S1 eq_refl eq_refl) as (p2 & E2 & R2).
      { intros m k Em. now apply construct_at. }
      rewrite E2. cbn [bind]. exists p2, (Some (i, e)). auto.
    + destruct D as (_ & _ & T). rewrite T in E. discriminate.
  - pose proof (walloc_d p st at_ R) as D. destruct (wx_take bs st Deferred 0) as [[st1 i]|f] eqn:T1; [|discriminate].
    destruct D as (p1 & e & -> & R1 & S1 & T). cbn [bind] in *. injection E as <- <-. exists p1, (Some (i, e)). auto.
  - destruct (ex_slot bs st i) as [[| |]|] eqn:S1; try discriminate. injection E as <- <-. destruct (won_cell_d p st i Deferred (Live a) (fun m k => construct m k (Some a)) R S1 eq_refl eq_refl) as (p2 & E2 & R2).
    { intros m k Em. now apply construct_at. }
    rewrite E2. cbn [bind]. exists p2, None. auto.
  - destruct (ex_slot bs st i) as [[| |a]|] eqn:S1; try discriminate. injection E as <- <-. destruct (won_cell_d p st i (Live a) Deferred destroy R S1 eq_refl eq_refl) as (p2 & E2 & R2).
    { intros m k Em. exact (destroy_at_live m k _ Em). }
    rewrite E2. cbn [bind]. exists p2, None. auto.
  - destruct (ex_slot bs st i) as [[| |a]|] eqn:S1; try discriminate. injection E as <- <-. unfold wFree. destruct (won_cell_d p st i (Live a) Deferred destroy R S1 eq_refl eq_refl) as (p2 & E2 & R2). { intros m k Em. exact (destroy_at_live m k _ Em). }
    rewrite E2. cbn [bind].
    assert (S2 : ex_slot bs (ex_put bs st i Deferred 0) i = Some Deferred /\ ex_put bs (ex_put bs st i Deferred 0) i Vacant 0 = ex_put bs st i Vacant 0).
    { destruct (wslot_row p st i _ R S1) as (s & d & b & Es & Ex & Eb & Hb & Hm & HL). unfold ex_slot, ex_put. rewrite Es.
      assert (N : nth_error (upd st (i / bs) (upd s (i mod bs) Deferred, 0 + d)) (i / bs) = Some (upd s (i mod bs) Deferred, d)).
      { rewrite nth_error_upd, Nat.eqb_refl. replace (i / bs <? length st) with true; [reflexivity|]. symmetry. apply Nat.ltb_lt, nth_error_Some. congruence. }
      rewrite N. split.
      - rewrite nth_error_upd, Nat.eqb_refl. now replace (i mod bs <? length s) with true by lia.
      - now rewrite !upd_upd. }
    destruct S2 as (S2 & S4). destruct (wrelease_d p2 _ i Deferred R2 S2 eq_refl) as (p3 & -> & R3 & _). cbn [held vacant negb] in R3. rewrite S4 in R3. cbn [bind]. exists p3, None. auto.
  - unfold wFree_nodestruction. destruct (ex_slot bs st i) as [[| |a]|] eqn:S1; try discriminate; injection E as <- <-; destruct (wrelease_d p st i _ R S1 eq_refl) as (p3 & -> & R3 & _); cbn [held vacant negb] in R3; cbn [bind]; exists p3, None; auto.
  - destruct (forallb _ st) eqn:F; [|discriminate]. injection E as <- <-. destruct (wreset_d _ _ H F) as (l' & E & _). unfold wClear. rewrite E. cbn [bind].
    rewrite HB. exists (WP bs []), None. split; [reflexivity|]. split; [split; [reflexivity | constructor] | reflexivity].
Qed.

Lemma wrun_d ops : forall p st st' rs, wrep p st -> wx_run bs st ops = Done (st', rs) -> exists p' ptrs, wpool_run stride p ops = Done (p', ptrs) /\ wrep p' st' /\ map (option_map fst) ptrs = rs.
Proof.
  induction ops as [|o ops IH]; intros p st st' rs R E; cbn [wx_run wpool_run] in *; [injection E as <- <-; exists p, []; auto|].
  destruct (wx_apply bs st o) as [[st1 r]|f] eqn:E1; [|discriminate]. cbn [bind] in E. destruct (wx_run bs st1 ops) as [[st2 rs2]|f] eqn:E2; [|discriminate]. cbn [bind] in E. injection E as <- <-.
  destruct (wstep_d p st o st1 r R E1) as (p1 & e & -> & R1 & M1). cbn [bind]. destruct (IH p1 st1 st2 rs2 R1 E2) as (p2 & ptrs & -> & R2 & M2). cbn [bind]. exists p2, (e :: ptrs). split; [reflexivity|]. split; [exact R2|]. cbn [map]. congruence.
Qed.

Lemma wnew_d at_ : exists p : @wpool A, wpool_new bs at_ = Done p /\ wrep p [(repeat Vacant bs, 0)].
Proof.
  destruct (wblk_fresh at_) as (f & o & Ef & Eo & B). unfold wpool_new, wAllocateBlock. cbn [w_blockSize w_blocks app]. rewrite Ef, Eo. cbn [bind]. eexists. split; [reflexivity|].
  split; [reflexivity|]. cbn [w_blocks]. constructor; [exact B | constructor].
Qed.

Lemma wcount_d p st : wrep p st -> wGetAllocatedEntryCount p = ((Z.of_nat (ex_held st) - Z.of_nat (ex_excess st)) mod 2 ^ 64)%Z.
Proof.
  intros (_ & H). unfold wGetAllocatedEntryCount, ex_excess, ex_held, list_sum.
  enough (G : forall c, fold_left (fun c b => size_t (c + wcount b)) (w_blocks p) (size_t c) = size_t (c + (Z.of_nat (fold_right Nat.add 0 (map (fun x => sp_count (fst x)) st)) - Z.of_nat (fold_right Nat.add 0 (map snd st))))).
  { specialize (G 0%Z). rewrite Z.add_0_l in G. exact G. }
  induction H as [|b x l st (_ & HC & _) H IH]; intros c; cbn [fold_left map fold_right]; [f_equal; lia|]. rewrite HC.
  replace (size_t (size_t c + wbelieved x)) with (size_t (c + (Z.of_nat (sp_count (fst x)) - Z.of_nat (snd x)))) by (unfold size_t, wbelieved; rewrite <- Zplus_mod; reflexivity).
  rewrite IH. f_equal. lia.
Qed.
End Pool.
