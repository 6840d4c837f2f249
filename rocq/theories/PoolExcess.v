(** MemoryPool: entries given back once too often; the blocks are those of the specification, with counters that are too low. *)
From Verif Require Import CellProofs BitsetSpec BitsetBits BitsetProofs BitsetFind VectorCopy PoolModel PoolProofs PoolHistory PoolReset PoolExcessSpec.
Open Scope nat_scope.

Section Pool.
Context {A : Type}.
Variable stride : N.
Variable bs : nat.
Hypothesis bs_pos : 0 < bs.
Implicit Types (s : list (slot A)) (st : list (row A)) (b : @pblock A) (p : @pool A).

Definition dblk b (x : row A) : Prop :=
  length (fst x) = bs /\ occupiedEntryCount b + snd x = sp_count (fst x) /\ memory b = map cell_of (fst x) /\
  repr 64 (freeEntries b) (map vacant (fst x)) /\ repr 64 (occupiedEntries b) (map held (fst x)).
Definition drep p st : Prop := m_blockSize p = bs /\ Forall2 dblk (m_blocks p) st.

Lemma dblk_believed b x : dblk b x -> occupiedEntryCount b = believed x.
Proof. intros (_ & H & _). unfold believed. lia. Qed.

Lemma full_believed b s d : dblk b (s, d) -> first_vacant s <> None \/ 0 < d -> believed (s, d) <> bs.
Proof.
  intros H C. pose proof (dblk_believed _ _ H) as B. destruct H as (HL & HC & _). cbn [fst snd] in *. pose proof (count_le s). pose proof (count_full s) as F.
  destruct C as [C|C]; [|lia]. destruct (first_vacant s); [|contradiction]. apply Nat.eqb_neq in F. lia.
Qed.

Lemma room_cases l st : Forall2 dblk l st -> forall j0,
  (find_room bs l j0 = Fault FAssert /\ forall x, ex_take bs st x j0 = Fault FAssert) \/
  (exists j s d k, find_room bs l j0 = Done (Some (j0 + j, k)) /\ nth_error st j = Some (s, d) /\ first_vacant s = Some k /\ forall x, ex_take bs st x j0 = Done (upd st j (upd s k x, d), (j0 + j) * bs + k)) \/
  (find_room bs l j0 = Done None /\ forall x, ex_take bs st x j0 = Done (st ++ [(x :: repeat Vacant (bs - 1), 0)], (j0 + length st) * bs)).
Proof.
  induction 1 as [|b [s d] l st Hb H IH]; intros j0.
  - right; right. split; [reflexivity|]. intros x. cbn. now rewrite Nat.add_0_r.
  - cbn [find_room ex_take]. rewrite (dblk_believed _ _ Hb). pose proof Hb as (HL & HC & HM & HF & HO). cbn [fst snd] in *. destruct (believed (s, d) =? bs) eqn:E.
    + rewrite Nat.add_1_r. destruct (IH (S j0)) as [(F & T)|[(j & s' & d' & k & F & N & V & T)|(F & T)]].
      * left. split; [exact F|]. intros x. now rewrite T.
      * right; left. exists (S j), s', d', k. rewrite <- plus_n_Sm. split; [exact F|]. split; [exact N|]. split; [exact V|]. intros x. rewrite T. reflexivity.
      * right; right. split; [exact F|]. intros x. rewrite T. cbn [bind app length]. now rewrite <- plus_n_Sm.
    + rewrite (FindFirst_repr 64 _ _ HF), <- first_vacant_find. destruct (first_vacant s) as [k|] eqn:V.
      * right; left. exists 0, s, d, k. rewrite Nat.add_0_r. auto.
      * left. auto.
Qed.

Lemma dact p st j b b' x' : drep p st -> nth_error (m_blocks p) j = Some b -> dblk b' x' ->
  exists p', (l <- vset (m_blocks p) j b' ;; Done (MP (m_blockSize p) l)) = Done p' /\ drep p' (upd st j x').
Proof.
  intros (HB & H) Eb Hb'. rewrite vset_done by (apply nth_error_Some; congruence). cbn [bind]. eexists. split; [reflexivity|]. split; [exact HB|]. cbn [m_blocks]. apply Forall2_upd; assumption.
Qed.

Lemma dblk_upd b s d i x y m f o c d' :
  dblk b (s, d) -> nth_error s i = Some x -> m = upd (memory b) i (cell_of y) -> repr 64 f (upd (map vacant s) i (vacant y)) -> repr 64 o (upd (map held s) i (held y)) ->
  c + d' + (if held x then 1 else 0) = sp_count s + (if held y then 1 else 0) -> dblk (PB (base b) c m f o) (upd s i y, d').
Proof.
  intros (HL & HC & HM & HF & HO) E Hm Hf Ho Hc. cbn [fst snd] in *. split; [cbn; now rewrite upd_length|]. cbn [occupiedEntryCount memory freeEntries occupiedEntries fst snd].
  pose proof (count_upd bs s i x y E). split; [lia|]. split; [now rewrite Hm, HM, map_upd|]. rewrite !map_upd. auto.
Qed.

(** An entry by its index. *)
Lemma slot_row p st i x : drep p st -> ex_slot bs st i = Some x ->
  exists s d b, nth_error st (i / bs) = Some (s, d) /\ nth_error s (i mod bs) = Some x /\ nth_error (m_blocks p) (i / bs) = Some b /\ dblk b (s, d) /\ i mod bs < bs /\ length s = bs.
Proof.
  intros (HB & H) E. unfold ex_slot in E. destruct (nth_error st (i / bs)) as [[s d]|] eqn:Es; [|discriminate]. destruct (Forall2_nth _ _ _ _ _ H Es) as (b & Eb & Hb).
  exists s, d, b. pose proof Hb as (HL & _). repeat split; auto; try apply Hb. apply Nat.mod_upper_bound. lia.
Qed.

Lemma on_cell_d p st i x y f : drep p st -> ex_slot bs st i = Some x -> held x = held y -> vacant x = vacant y ->
  (forall m k, nth_error m k = Some (cell_of x) -> f m k = Done (upd m k (cell_of y))) -> exists p', on_cell p i f = Done p' /\ drep p' (ex_put bs st i y 0).
Proof.
  intros R E HH HV Hf. pose proof R as (HB & H). destruct (slot_row p st i x R E) as (s & d & b & Es & Ex & Eb & Hb & Hm & HL). pose proof Hb as (_ & HC & HM & HF & HO). cbn [fst snd] in *.
  unfold on_cell, ex_put. rewrite Es, HB, (vget_some _ _ _ Eb). cbn [bind]. rewrite Hf by (rewrite HM; now apply map_nth_error). cbn [bind].
  assert (M : forall (g : slot A -> bool), g x = g y -> upd (map g s) (i mod bs) (g y) = map g s) by (intros g G; apply upd_id; rewrite <- G; now apply map_nth_error).
  destruct (dact p st (i / bs) b (PB (base b) (occupiedEntryCount b) (upd (memory b) (i mod bs) (cell_of y)) (freeEntries b) (occupiedEntries b)) (upd s (i mod bs) y, d) R Eb) as (p' & Ep & Rp).
  - apply (dblk_upd b s d (i mod bs) x y); auto; [rewrite M | rewrite M | rewrite HH]; auto; lia.
  - rewrite HB in Ep. rewrite Ep. exists p'. split; [reflexivity | exact Rp].
Qed.

Lemma release_d p st i x : drep p st -> ex_slot bs st i = Some x -> cell_of x = Raw ->
  if ex_believed bs st i =? 0 then release p (i / bs) (i mod bs) = Fault FAssert
  else exists p', release p (i / bs) (i mod bs) = Done p' /\ drep p' (ex_put bs st i Vacant (if held x then 0 else 1)).
Proof.
  intros R E HR. pose proof R as (HB & H). destruct (slot_row p st i x R E) as (s & d & b & Es & Ex & Eb & Hb & Hm & HL). pose proof (dblk_believed _ _ Hb) as HBel. pose proof Hb as (_ & HC & HM & HF & HO). cbn [fst snd] in *.
  unfold release, ex_put, ex_believed. rewrite Es, (vget_some _ _ _ Eb). cbn [bind]. rewrite HBel. destruct (Nat.eqb_spec (believed (s, d)) 0) as [Z|NZ].
  - rewrite Z. reflexivity.
  - replace (0 <? believed (s, d)) with true by lia. cbn [assert bind]. unfold ResetBit.
    destruct (Set_done 64 _ _ (i mod bs) true HF) as (f & -> & Rf); [rewrite map_length; lia|]. cbn [bind]. destruct (Set_done 64 _ _ (i mod bs) false HO) as (o & -> & Ro); [rewrite map_length; lia|]. cbn [bind].
    apply (dact p st (i / bs) b); [exact R | exact Eb|]. apply (dblk_upd b s d (i mod bs) x Vacant); auto.
    + rewrite HM. symmetry. apply upd_id. rewrite (map_nth_error _ _ _ Ex), HR. reflexivity.
    + cbn [held vacant negb]. destruct (held x); lia.
Qed.

Lemma pointer_d p st i : drep p st -> exists a, GetAllocatedPointer stride p (i / bs) (i mod bs) = match ex_slot bs st i with Some x => if held x then Done a else Fault FAssert | None => Fault FAssert end.
Proof.
  intros R. pose proof R as (HB & H). unfold GetAllocatedPointer. destruct (ex_slot bs st i) as [x|] eqn:E.
  - destruct (slot_row p st i x R E) as (s & d & b & Es & Ex & Eb & Hb & Hm & HL). exists (address stride b (i mod bs)).
    replace (i / bs <? length (m_blocks p)) with true by (symmetry; apply Nat.ltb_lt, nth_error_Some; congruence). cbn [assert bind]. rewrite (vget_some _ _ _ Eb). cbn [bind].
    pose proof Hb as (_ & HC & HM & HF & HO). cbn [fst snd] in *. rewrite (Test_repr 64 _ _ (i mod bs) HO), map_length, HL. replace (i mod bs <? bs) with true by lia. cbn [bind].
    unfold sbit. rewrite (nth_error_nth _ _ _ (map_nth_error held _ _ Ex)). destruct (held x); reflexivity.
  - exists 0%N. unfold ex_slot in E. destruct (nth_error st (i / bs)) as [[s d]|] eqn:Es.
    + destruct (Forall2_nth _ _ _ _ _ H Es) as (b & _ & (HL & _)). cbn [fst] in HL. apply nth_error_None in E. pose proof (Nat.mod_upper_bound i bs ltac:(lia)). lia.
    + apply nth_error_None in Es. rewrite (Forall2_len _ _ _ H). now replace (i / bs <? length st) with false by lia.
Qed.

Lemma div_row j k : k < bs -> (j * bs + k) / bs = j /\ (j * bs + k) mod bs = k.
Proof. intros Hk. rewrite (Nat.add_comm (j * bs)), Nat.div_add, Nat.mod_add, Nat.div_small, Nat.mod_small by lia. auto. Qed.

(** Marking a vacant entry as taken. *)
Lemma take_d p st j s d k : drep p st -> nth_error st j = Some (s, d) -> nth_error s k = Some Vacant ->
  exists p' e, (b <- vget (m_blocks p) j ;;
   f <- ResetBit 64 (freeEntries b) k ;;
   o <- Set_ 64 (occupiedEntries b) k true ;;
   l <- vset (m_blocks p) j (PB (base b) (occupiedEntryCount b + 1) (memory b) f o) ;;
   Done (MP (m_blockSize p) l, j * m_blockSize p + k, address stride b k)) = Done (p', j * bs + k, e) /\ drep p' (upd st j (upd s k Deferred, d)).
Proof.
  intros R Es V. pose proof R as (HB & H). destruct (Forall2_nth _ _ _ _ _ H Es) as (b & Eb & Hb). pose proof Hb as (HL & HC & HM & HF & HO). cbn [fst snd] in *.
  assert (Hk : k < bs) by (rewrite <- HL; apply nth_error_Some; congruence). rewrite (vget_some _ _ _ Eb). cbn [bind]. unfold ResetBit.
  destruct (Set_done 64 _ _ k false HF) as (f & -> & Rf); [rewrite map_length; lia|]. cbn [bind]. destruct (Set_done 64 _ _ k true HO) as (o & -> & Ro); [rewrite map_length; lia|]. cbn [bind].
  destruct (dact p st j b (PB (base b) (occupiedEntryCount b + 1) (memory b) f o) (upd s k Deferred, d) R Eb) as (p' & Ep & Rp).
  - apply (dblk_upd b s d k Vacant Deferred); auto; [|cbn; lia]. rewrite HM. symmetry. apply upd_id. rewrite (map_nth_error _ _ _ V). reflexivity.
  - destruct (vset _ _ _) as [l|]; [|discriminate]. cbn [bind] in *. injection Ep as <-. rewrite HB. do 2 eexists. split; [reflexivity|]. rewrite <- HB. exact Rp.
Qed.

Lemma alloc_d p st at_ : drep p st ->
  match ex_take bs st Deferred 0 with
  | Done (st', i) => exists p' e, Allocate_defer stride p at_ = Done (p', i, e) /\ drep p' st' /\ ex_slot bs st' i = Some Deferred /\ forall x, ex_take bs st x 0 = Done (ex_put bs st' i x 0, i)
  | Fault f => f = FAssert /\ Allocate_defer stride p at_ = Fault FAssert /\ forall x, ex_take bs st x 0 = Fault FAssert
  end.
Proof.
  intros R. pose proof R as (HB & H). unfold Allocate_defer. rewrite HB. destruct (room_cases _ _ H 0) as [(F & T)|[(j & s & d & k & F & Es & V & T)|(F & T)]]; rewrite T, F; cbn [bind Nat.add].
  - auto.
  - destruct (Forall2_nth _ _ _ _ _ H Es) as (b & _ & (HL & _)). cbn [fst] in HL. destruct (first_vacant_some bs _ _ V) as (Hk & Vk & _). rewrite HL in Hk.
    destruct (take_d p st j s d k R Es Vk) as (p' & e & E & Rp). rewrite HB in E. rewrite HB, E. destruct (div_row j k Hk) as (D1 & D2). exists p', e. split; [reflexivity|]. split; [exact Rp|].
    assert (N : nth_error (upd st j (upd s k Deferred, d)) j = Some (upd s k Deferred, d)).
    { rewrite nth_error_upd, Nat.eqb_refl. replace (j <? length st) with true; [reflexivity|]. symmetry. apply Nat.ltb_lt, nth_error_Some. congruence. }
    unfold ex_slot, ex_put. rewrite D1, D2, N. split.
    + rewrite nth_error_upd, Nat.eqb_refl. now replace (k <? length s) with true by lia.
    + intros x. rewrite T. cbn [Nat.add]. now rewrite !upd_upd.
  - assert (R1 : exists b, AllocateBlock p at_ = Done (MP bs (m_blocks p ++ [b])) /\ dblk b (repeat Vacant bs, 0)).
    { destruct (@blk_fresh A bs at_) as (f & o & Ef & Eo & (B1 & B2 & B3)). unfold AllocateBlock. rewrite HB, Ef, Eo. cbn [bind]. eexists. split; [reflexivity|]. split; [exact B1|]. split; [|exact B3]. cbn [snd fst]. lia. }
    destruct R1 as (b & Ea & Hb). rewrite Ea. cbn [bind m_blocks m_blockSize]. rewrite (Forall2_len _ _ _ H).
    assert (R2 : drep (MP bs (m_blocks p ++ [b])) (st ++ [(repeat Vacant bs, 0)])) by (split; [reflexivity|]; cbn [m_blocks]; apply Forall2_app; [exact H | constructor; [exact Hb | constructor]]).
    assert (Es : nth_error (st ++ [(repeat (@Vacant A) bs, 0)]) (length st) = Some (repeat Vacant bs, 0)) by (rewrite nth_error_app2, Nat.sub_diag by lia; reflexivity).
    assert (Vk : nth_error (repeat (@Vacant A) bs) 0 = Some Vacant) by (destruct bs; [lia | reflexivity]).
    destruct (take_d _ _ (length st) _ 0 0 R2 Es Vk) as (p' & e & E & Rp). cbn [m_blocks m_blockSize] in E. rewrite E.
    assert (U : forall x, upd (st ++ [(repeat Vacant bs, 0)]) (length st) (upd (repeat (@Vacant A) bs) 0 x, 0) = st ++ [(x :: repeat Vacant (bs - 1), 0)]).
    { intros x. rewrite (upd_mid st [] _ _ (length st)) by reflexivity. destruct bs as [|k]; [lia|]. cbn [repeat upd]. now rewrite Nat.sub_succ, Nat.sub_0_r. }
    rewrite U in Rp. rewrite Nat.add_0_r. destruct (div_row (length st) 0 bs_pos) as (D1 & D2). rewrite Nat.add_0_r in D1, D2.
    exists p', e. split; [reflexivity|]. split; [exact Rp|]. unfold ex_slot, ex_put. rewrite D1, D2.
    assert (N : nth_error (st ++ [(@Deferred A :: repeat Vacant (bs - 1), 0)]) (length st) = Some (Deferred :: repeat Vacant (bs - 1), 0)) by (rewrite nth_error_app2, Nat.sub_diag by lia; reflexivity).
    rewrite N. split; [reflexivity|]. intros x. rewrite T. cbn [Nat.add upd]. now rewrite (upd_mid st [] _ _ (length st)) by reflexivity.
Qed.

(** Clear: a row that is believed empty is left as it is. *)
Definition ex_wiped (x : row A) : list (cell A) := if believed x =? 0 then map cell_of (fst x) else repeat Raw bs.
Lemma reset_d l st : 2 <= bs -> Forall2 dblk l st -> forallb (fun x => (believed x =? 0) || sp_settled (fst x)) st = true ->
  exists l', reset_blocks l = Done l' /\ map memory l' = map ex_wiped st.
Proof.
  intros B2. induction 1 as [|b x l st Hb H IH]; intros C; [exists []; split; reflexivity|]. cbn [forallb] in C. apply andb_prop in C. destruct C as (C1 & C2). destruct (IH C2) as (l' & E & M).
  cbn [reset_blocks map]. unfold reset_block. rewrite (dblk_believed _ _ Hb). unfold ex_wiped at 1. pose proof Hb as (HL & HC & HM & HF & HO). destruct (believed x =? 0) eqn:Z.
  - cbn [bind]. rewrite E. cbn [bind]. eexists. split; [reflexivity|]. cbn [map]. now rewrite HM, M.
  - cbn [orb] in C1. rewrite (IterBits_repr 64 _ _ HO). cbn [bind]. unfold s_positions. rewrite map_length.
    pose proof (destroy_held bs bs_pos (fst x) 0) as D. cbn [repeat app Nat.add] in D. rewrite (filter_ext _ (sbit (map held (fst x)))) in D by (intros; now rewrite Nat.sub_0_r).
    rewrite HM, D, C1. cbn [bind]. unfold ResetBit. destruct (Set_done 64 _ _ 1 false HF) as (f & -> & Rf); [rewrite map_length; lia|]. cbn [bind].
    destruct (Set_done 64 _ _ 0 false HO) as (o & -> & Ro); [rewrite map_length; lia|]. cbn [bind]. rewrite E. cbn [bind]. eexists. split; [reflexivity|]. cbn [map memory]. now rewrite M, HL.
Qed.

Definition follows (x : outcome (@pool A * option (nat * N))) (y : outcome (list (row A) * option nat)) : Prop :=
  match y with
  | Done (st', r) => exists p' e, x = Done (p', e) /\ drep p' st' /\ option_map fst e = r
  | Fault FUB => True
  | Fault f => x = Fault f
  end.

Lemma step_d p st o : drep p st -> 2 <= bs \/ is_clear o = false -> follows (pool_apply stride p o) (ex_apply bs st o).
Proof.
  intros R HO. pose proof R as (HB & H). destruct o; cbn [ex_apply pool_apply].
  - pose proof (alloc_d p st at_ R) as D. unfold Allocate. destruct (ex_take bs st Deferred 0) as [[st' i]|f] eqn:E.
    + destruct D as (p1 & e & -> & R1 & S1 & T). rewrite T. cbn [bind follows]. destruct (on_cell_d p1 st' i Deferred (Live a) (fun m k => construct m k (Some a)) R1 S1 eq_refl eq_refl) as (p2 & E2 & R2).
      { intros m k Em. now apply construct_at. }
      unfold user_construct. rewrite E2. cbn [bind]. exists p2, (Some (i, e)). auto.
    + destruct D as (_ & -> & T). rewrite T. reflexivity.
  - pose proof (alloc_d p st at_ R) as D. destruct (ex_take bs st Deferred 0) as [[st' i]|f] eqn:E.
    + destruct D as (p1 & e & -> & R1 & S1 & T). cbn [bind follows]. exists p1, (Some (i, e)). auto.
    + destruct D as (-> & -> & T). reflexivity.
  - destruct (ex_slot bs st i) as [[| |]|] eqn:S1; cbn [follows]; auto. destruct (on_cell_d p st i Deferred (Live a) (fun m k => construct m k (Some a)) R S1 eq_refl eq_refl) as (p2 & E2 & R2).
    { intros m k Em. now apply construct_at. }
    unfold user_construct. rewrite E2. cbn [bind]. exists p2, None. auto.
  - destruct (ex_slot bs st i) as [[| |a]|] eqn:S1; cbn [follows]; auto. destruct (on_cell_d p st i (Live a) Deferred destroy R S1 eq_refl eq_refl) as (p2 & E2 & R2).
    { intros m k Em. exact (destroy_at_live m k _ Em). }
    unfold user_destroy. rewrite E2. cbn [bind]. exists p2, None. auto.
  - unfold Free, split_index. rewrite HB. replace (bs =? 0) with false by lia. cbn [negb require bind]. destruct (pointer_d p st i R) as (ad & P). rewrite P.
    destruct (ex_slot bs st i) as [[| |a]|] eqn:S1; cbn [follows held vacant negb bind]; auto.
    destruct (on_cell_d p st i (Live a) Deferred destroy R S1 eq_refl eq_refl) as (p2 & E2 & R2). { intros m k Em. exact (destroy_at_live m k _ Em). }
    rewrite E2. cbn [bind].
    assert (S2 : ex_slot bs (ex_put bs st i Deferred 0) i = Some Deferred /\ ex_believed bs (ex_put bs st i Deferred 0) i = ex_believed bs st i /\ ex_put bs (ex_put bs st i Deferred 0) i Vacant 0 = ex_put bs st i Vacant 0).
    { destruct (slot_row p st i _ R S1) as (s & d & b & Es & Ex & Eb & Hb & Hm & HL). unfold ex_slot, ex_put, ex_believed. rewrite Es.
      assert (N : nth_error (upd st (i / bs) (upd s (i mod bs) Deferred, 0 + d)) (i / bs) = Some (upd s (i mod bs) Deferred, d)).
      { rewrite nth_error_upd, Nat.eqb_refl. replace (i / bs <? length st) with true; [reflexivity|]. symmetry. apply Nat.ltb_lt, nth_error_Some. congruence. }
      rewrite N. split; [|split].
      - rewrite nth_error_upd, Nat.eqb_refl. now replace (i mod bs <? length s) with true by lia.
      - unfold believed. cbn [fst snd]. pose proof (count_upd bs s (i mod bs) _ Deferred Ex) as C. cbn in C. lia.
      - now rewrite !upd_upd. }
    destruct S2 as (S2 & S3 & S4). pose proof (release_d p2 _ i Deferred R2 S2 eq_refl) as RL. rewrite S3 in RL. cbn [held vacant negb] in RL. rewrite S4 in RL.
    destruct (ex_believed bs st i =? 0); cbn [follows].
    + rewrite RL. reflexivity.
    + destruct RL as (p3 & -> & R3). cbn [bind]. exists p3, None. auto.
  - unfold Free_nodestruction, split_index. rewrite HB. replace (bs =? 0) with false by lia. cbn [negb require bind].
    destruct (ex_slot bs st i) as [[| |a]|] eqn:S1; cbn [follows]; auto; pose proof (release_d p st i _ R S1 eq_refl) as RL; cbn [held vacant negb] in RL; destruct (ex_believed bs st i =? 0); cbn [follows];
      try (rewrite RL; reflexivity); destruct RL as (p3 & -> & R3); cbn [bind]; exists p3, None; auto.
  - destruct HO as [HO|HO]; [|discriminate]. destruct (forallb _ st) eqn:F; cbn [follows]; auto. destruct (reset_d _ _ HO H F) as (l' & E & _). unfold Clear, Reset. rewrite E. cbn [bind m_blockSize m_blocks].
    rewrite HB. exists (MP bs []), None. split; [reflexivity|]. split; [split; [reflexivity | constructor] | reflexivity].
Qed.

Lemma run_d ops : forall p st, drep p st -> 2 <= bs \/ ~ In PClear ops ->
  match ex_run bs st ops with
  | Done (st', rs) => exists p' ptrs, pool_run stride p ops = Done (p', ptrs) /\ drep p' st' /\ map (option_map fst) ptrs = rs
  | Fault FUB => True
  | Fault f => pool_run stride p ops = Fault f
  end.
Proof.
  induction ops as [|o ops IH]; intros p st R HO; cbn [ex_run pool_run]; [exists p, []; auto|].
  assert (HC : 2 <= bs \/ is_clear o = false) by (destruct HO as [HO|HO]; [auto | right; destruct o; try reflexivity; exfalso; apply HO; now left]).
  assert (HO' : 2 <= bs \/ ~ In PClear ops) by (destruct HO as [HO|HO]; [auto|]; right; intros I; apply HO; now right).
  pose proof (step_d p st o R HC) as S. destruct (ex_apply bs st o) as [[st1 r]|f]; cbn [follows bind] in *.
  - destruct S as (p1 & e & -> & R1 & M1). cbn [bind]. specialize (IH p1 st1 R1 HO'). destruct (ex_run bs st1 ops) as [[st2 rs]|f]; cbn [bind].
    + destruct IH as (p2 & ptrs & -> & R2 & M2). cbn [bind]. exists p2, (e :: ptrs). split; [reflexivity|]. split; [exact R2|]. cbn [map]. congruence.
    + destruct f; auto; rewrite IH; reflexivity.
  - destruct f; auto; rewrite S; reflexivity.
Qed.

Lemma new_d at_ : exists p : @pool A, pool_new bs at_ = Done p /\ drep p [(repeat Vacant bs, 0)].
Proof.
  destruct (@blk_fresh A bs at_) as (f & o & Ef & Eo & (B1 & B2 & B3)). unfold pool_new, AllocateBlock. cbn [m_blockSize m_blocks app]. rewrite Ef, Eo. cbn [bind]. eexists. split; [reflexivity|].
  split; [reflexivity|]. cbn [m_blocks]. constructor; [|constructor]. split; [exact B1|]. split; [|exact B3]. cbn [snd fst]. lia.
Qed.

Lemma count_d p st : drep p st -> GetAllocatedEntryCount p + ex_excess st = ex_held st.
Proof.
  intros (_ & H). unfold GetAllocatedEntryCount, ex_excess, ex_held, list_sum.
  enough (G : forall c, fold_left (fun c b => c + occupiedEntryCount b) (m_blocks p) c + fold_right Nat.add 0 (map snd st) = c + fold_right Nat.add 0 (map (fun x => sp_count (fst x)) st)) by apply G.
  induction H as [|b x l st (_ & HC & _) H IH]; intros c; cbn [fold_left map fold_right]; [lia|]. specialize (IH (c + occupiedEntryCount b)). lia.
Qed.

Lemma held_vacant s : s_count (map vacant s) + sp_count s = length s.
Proof. unfold s_count, sp_count. induction s as [|x s IH]; [reflexivity|]. cbn [map count_occ filter length]. unfold held at 1. destruct (vacant x); cbn [negb Bool.bool_dec length]; destruct (Bool.bool_dec _ _); try congruence; lia. Qed.

(** A row with an excess stops the pool. *)
Lemma starve_d p st j s d at_ : drep p st -> nth_error st j = Some (s, d) -> 0 < d ->
  exists n p' ptrs, n <= length st * bs - ex_held st /\ pool_run stride p (repeat (PDefer at_) n) = Done (p', ptrs) /\ GetBlockCount p' = GetBlockCount p /\ forall at', Allocate_defer stride p' at' = Fault FAssert.
Proof.
  intros (HB & H) E D. set (w := map (fun x : row A => (believed x, map vacant (fst x))) st).
  assert (W : Forall2 (weak bs) (m_blocks p) w).
  { unfold w. clear E. induction H as [|b x l st Hb H IH]; constructor; [|exact IH]. pose proof (dblk_believed _ _ Hb) as B. destruct Hb as (HL & HC & HM & HF & HO). split; [exact B|]. cbn [fst snd].
    split; [now rewrite map_length|]. split; [exact HF|]. exists (map held (fst x)). split; [now rewrite map_length | exact HO]. }
  assert (Ew : nth_error w j = Some (believed (s, d), map vacant s)) by (unfold w; exact (map_nth_error _ _ _ E)).
  destruct (Forall2_nth _ _ _ _ _ H E) as (b & _ & (HL & HC & _)). cbn [fst snd] in *. pose proof (held_vacant s) as HV.
  assert (L : believed (s, d) + s_count (map vacant s) < bs) by (unfold believed; cbn [fst snd]; lia).
  destruct (starve stride bs at_ _ p w j _ _ HB W Ew L eq_refl) as (n & p' & ptrs & Hn & ER & LB & HB' & HA). exists n, p', ptrs.
  split; [|split; [exact ER | split; [exact LB|]; intros at'; unfold Allocate_defer; now rewrite HB', HA]].
  assert (FB : free_bits w + ex_held st = length st * bs).
  { unfold w, ex_held, list_sum. clear - H bs_pos. induction H as [|b x l st (HL & _) H IH]; [reflexivity|]. cbn [map free_bits fold_right snd length Nat.mul]. pose proof (held_vacant (fst x)). lia. }
  assert (FF : forall k (v : list (nat * list bool)), free_bits (firstn k v) <= free_bits v) by (intros k v; revert k; induction v as [|x v IH]; intros [|k]; cbn [firstn free_bits]; try lia; specialize (IH k); lia).
  specialize (FF (j + 1) w). lia.
Qed.
End Pool.
