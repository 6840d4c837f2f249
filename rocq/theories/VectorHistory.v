(** Histories of operations on a FixedVector / HybridVector follow the plain sequence. *)
From Verif Require Import CellModel CellProofs VectorModel VectorProofs.

Section Vector.
Context {A : Type}.
Variables (has : bool) (cap : nat) (dflt : A).
Implicit Types (l : list A) (v : fvec A).

Definition vbound : option nat := if has then None else Some cap.

Definition rep v l : Prop := (v = inl cap (map Some l) /\ length l <= cap) \/ (has = true /\ v = spl cap (map Some l)).

Lemma rep_new : rep (fv_new cap) [].
Proof. left. split; [|simpl; lia]. unfold inl, fv_new. simpl. now rewrite Nat.sub_0_r. Qed.

Lemma insert_map l i a : firstn i (map Some l) ++ Some a :: skipn i (map Some l) = map Some (firstn i l ++ a :: skipn i l).
Proof. rewrite map_app. cbn [map]. now rewrite firstn_map, skipn_map. Qed.

Lemma fits_vbound n : fits vbound n = has || (n <=? cap).
Proof. unfold vbound. destruct has; reflexivity. Qed.

Lemma insert_length l i a : i <= length l -> length (firstn i l ++ a :: skipn i l) = length l + 1.
Proof. intros H. rewrite app_length. cbn [length]. rewrite firstn_length, skipn_length. lia. Qed.

Lemma emplace_rep v l i (x : arg A) a : arg_value x = Some a -> outside x -> rep v l -> i <= length l -> has || (length l + 1 <=? cap) = true ->
  exists v', fv_emplace has cap v i x = Done (v', i, is_move x) /\ rep v' (firstn i l ++ a :: skipn i l).
Proof.
  intros Ha Hx [(-> & HL)|(Hh & ->)] Hi HF.
  - destruct (Nat.lt_ge_cases (length l) cap) as [H|H].
    + rewrite emplace_inl by (trivial; rewrite map_length; lia). rewrite Ha, insert_map. eexists. split; [reflexivity|]. left. split; [reflexivity|].
      rewrite insert_length; lia.
    + assert (Hh : has = true) by (destruct has; [reflexivity | simpl in HF; lia]).
      rewrite emplace_full by (trivial; rewrite map_length; lia). rewrite Ha, insert_map. eexists. split; [reflexivity|]. right. auto.
  - rewrite emplace_spl by (trivial; rewrite map_length; lia). rewrite Ha, insert_map. eexists. split; [reflexivity|]. right. auto.
Qed.

Lemma snoc_map l a : map Some l ++ [Some a] = map Some (l ++ [a]).
Proof. now rewrite map_app. Qed.

Lemma push_rep v l (x : arg A) a : arg_value x = Some a -> outside x -> rep v l -> has || (length l + 1 <=? cap) = true ->
  exists v' b, fv_push_back has cap v x = Done (v', b) /\ rep v' (l ++ [a]).
Proof.
  intros Ha Hx [(-> & HL)|(Hh & ->)] HF.
  - destruct (Nat.lt_ge_cases (length l) cap) as [H|H].
    + rewrite push_inl by (trivial; rewrite map_length; lia). rewrite Ha, snoc_map. do 2 eexists. split; [reflexivity|]. left. split; [reflexivity|].
      rewrite app_length. simpl. lia.
    + assert (Hh : has = true) by (destruct has; [reflexivity | simpl in HF; lia]).
      rewrite push_full by (trivial; rewrite map_length; lia). rewrite Ha, snoc_map. do 2 eexists. split; [reflexivity|]. right. auto.
  - rewrite push_spl by (trivial; rewrite map_length; lia). rewrite Ha, snoc_map. do 2 eexists. split; [reflexivity|]. right. auto.
Qed.

Lemma emplace_back_rep v l (x : arg A) a : arg_value x = Some a -> outside x -> rep v l -> has || (length l + 1 <=? cap) = true ->
  exists v' b, fv_emplace_back has cap v x = Done (v', b) /\ rep v' (l ++ [a]).
Proof.
  intros Ha Hx [(-> & HL)|(Hh & ->)] HF.
  - destruct (Nat.lt_ge_cases (length l) cap) as [H|H].
    + rewrite emplace_back_inl by (trivial; rewrite map_length; lia). rewrite Ha, snoc_map. do 2 eexists. split; [reflexivity|]. left. split; [reflexivity|].
      rewrite app_length. simpl. lia.
    + assert (Hh : has = true) by (destruct has; [reflexivity | simpl in HF; lia]).
      rewrite emplace_back_full by (trivial; rewrite map_length; lia). rewrite Ha, snoc_map. do 2 eexists. split; [reflexivity|]. right. auto.
  - rewrite emplace_back_spl by (trivial; rewrite map_length; lia). rewrite Ha, snoc_map. do 2 eexists. split; [reflexivity|]. right. auto.
Qed.

Lemma resize_rep v l n a : rep v l -> has || (n <=? cap) = true ->
  exists v', fv_resize_with has cap v n (ByCopy a) = Done v' /\ rep v' (firstn n l ++ repeat a (n - length l)).
Proof.
  assert (E : firstn n (map Some l) ++ repeat (Some a) (n - length (map Some l)) = map Some (firstn n l ++ repeat a (n - length l))).
  { rewrite map_app, firstn_map, map_length. f_equal. generalize (n - length l). intros k. induction k; simpl; congruence. }
  intros [(-> & HL)|(Hh & ->)] HF.
  - destruct (Nat.le_gt_cases n cap) as [H|H].
    + rewrite resize_inl by (trivial; try exact I; rewrite map_length; lia). cbn [arg_value]. rewrite E. eexists. split; [reflexivity|]. left. split; [reflexivity|].
      rewrite app_length, firstn_length, repeat_length. lia.
    + assert (Hh : has = true) by (destruct has; [reflexivity | simpl in HF; lia]).
      rewrite resize_over by (trivial; try exact I; rewrite map_length; lia). cbn [arg_value]. rewrite E. eexists. split; [reflexivity|]. right. auto.
  - rewrite resize_spl by (trivial; exact I). cbn [arg_value]. rewrite E. eexists. split; [reflexivity|]. right. auto.
Qed.

Lemma rep_size v l : rep v l -> fv_size has v = length l.
Proof. intros [(-> & HL)|(Hh & ->)]; [now rewrite size_inl, map_length|]. unfold fv_size. rewrite fb_spl by assumption. simpl. apply map_length. Qed.

Lemma rep_empty v l : rep v l -> fv_empty has v = (length l =? 0).
Proof. intros [(-> & HL)|(Hh & ->)]; [now rewrite empty_inl, map_length|]. unfold fv_empty. rewrite fb_spl by assumption. simpl. now rewrite map_length. Qed.

Lemma rep_load v l i d : rep v l -> i < length l -> fv_load has v i = Done (Some (nth i l d)).
Proof.
  intros [(-> & HL)|(Hh & ->)] Hi.
  - rewrite (load_inl has cap _ i (Some d)) by (now rewrite map_length). now rewrite map_nth.
  - unfold fv_load. rewrite fb_spl by assumption. cbn [fallback spl]. rewrite (vget_done _ i (Some d)) by (now rewrite map_length). now rewrite map_nth.
Qed.

Lemma cut3 {B} (q : list B) i j : i <= j <= length q -> q = firstn i q ++ firstn (j - i) (skipn i q) ++ skipn j q.
Proof.
  intros H. rewrite <- (firstn_skipn i q) at 1. f_equal. rewrite <- (firstn_skipn (j - i) (skipn i q)) at 1. f_equal.
  replace j with (j - i + i) at 2 by lia. symmetry. generalize (j - i). clear. intros k. revert q. induction i as [|i IH]; intros q; [now rewrite Nat.add_0_r|].
  rewrite Nat.add_succ_r. destruct q; cbn [skipn]; [now rewrite skipn_nil | apply IH].
Qed.

Lemma cut1 {B} (q : list B) i d : i < length q -> q = firstn i q ++ nth i q d :: skipn (i + 1) q.
Proof.
  intros H. rewrite <- (firstn_skipn i q) at 1. f_equal. apply (list_ext d).
  - cbn [length]. rewrite !skipn_length. lia.
  - intros [|k] Hk; rewrite nth_skipn; cbn [nth]; [now rewrite Nat.add_0_r|]. rewrite nth_skipn. f_equal; lia.
Qed.

Lemma erase_map l i j : firstn i (map Some l) ++ skipn j (map Some l) = map Some (firstn i l ++ skipn j l).
Proof. rewrite map_app. cbn [map]. now rewrite firstn_map, skipn_map. Qed.

Lemma erase_rep v l i : rep v l -> i < length l -> exists v', fv_erase has v i = Done (v', i) /\ rep v' (firstn i l ++ skipn (i + 1) l).
Proof.
  intros [(-> & HL)|(Hh & ->)] Hi.
  - assert (Hi' : i < length (map Some l)) by (now rewrite map_length).
    pose proof (erase_inl has cap (firstn i (map Some l)) (nth i (map Some l) None) (skipn (i + 1) (map Some l))) as E.
    rewrite <- (cut1 _ i None) in E by assumption. rewrite firstn_length in E. replace (Nat.min i (length (map Some l))) with i in E by lia.
    rewrite E by (now rewrite map_length). rewrite erase_map. eexists. split; [reflexivity|]. left. split; [reflexivity|].
    rewrite app_length, firstn_length, skipn_length. lia.
  - unfold fv_erase, fv_size. rewrite fb_spl by assumption. cbn [fallback spl]. rewrite map_length. replace (i <? length l) with true by lia.
    cbn [assert bind m_size m_data]. rewrite erase_map. eexists. split; [reflexivity|]. right. auto.
Qed.

Lemma erase_range_rep v l i j : rep v l -> i < j <= length l -> exists v', fv_erase_range has cap dflt v i j = Done (v', i) /\ rep v' (firstn i l ++ skipn j l).
Proof.
  intros [(-> & HL)|(Hh & ->)] Hi.
  - assert (Hi' : i <= j <= length (map Some l)) by (rewrite map_length; lia).
    pose proof (erase_range_inl has cap dflt (firstn i (map Some l)) (firstn (j - i) (skipn i (map Some l))) (skipn j (map Some l))) as E.
    rewrite <- cut3 in E by assumption. rewrite !firstn_length, skipn_length in E. rewrite map_length in Hi', E.
    replace (Nat.min i (length l)) with i in E by lia. replace (i + Nat.min (j - i) (length l - i)) with j in E by lia.
    rewrite E; [|intros C; apply (f_equal (@length _)) in C; rewrite firstn_length, skipn_length, map_length in C; simpl in C; lia | assumption].
    rewrite erase_map. eexists. split; [reflexivity|]. left. split; [reflexivity|]. rewrite app_length, firstn_length, skipn_length. lia.
  - unfold fv_erase_range. rewrite fb_spl by assumption. cbn [fallback spl]. rewrite map_length. replace (i <=? j) with true by lia. replace (j <=? length l) with true by lia.
    cbn [andb require bind m_size m_data]. rewrite erase_map. eexists. split; [reflexivity|]. right. auto.
Qed.

Lemma pop_rep v l : rep v l -> 0 < length l -> exists v', fv_pop_back has v = Done v' /\ rep v' (removelast l).
Proof.
  intros R Hl. assert (Hne : l <> []) by (destruct l; [simpl in Hl; lia | discriminate]).
  destruct (exists_last Hne) as (l' & x & ->). rewrite removelast_last. rewrite app_length in Hl. simpl in Hl.
  destruct R as [(-> & HL)|(Hh & ->)]; rewrite ?app_length in *; simpl in *.
  - rewrite map_app. simpl. rewrite pop_inl by (rewrite map_length; lia). eexists. split; [reflexivity|]. left. split; [reflexivity | lia].
  - unfold fv_pop_back. rewrite fb_spl by assumption. cbn [fallback spl]. rewrite map_length, app_length. cbn [length]. replace (length l' + 1 =? 0) with false by lia.
    cbn [negb require bind m_size m_data]. rewrite map_app. simpl. rewrite removelast_last. eexists. split; [reflexivity|]. right. auto.
Qed.

Lemma clear_rep v l : rep v l -> exists v', fv_clear has v = Done v' /\ rep v' [] /\ m_data v' = repeat Raw cap.
Proof.
  intros [(-> & HL)|(Hh & ->)].
  - rewrite clear_inl by (rewrite map_length; lia). eexists. split; [reflexivity|]. split; [left; split; [reflexivity | simpl; lia]|]. simpl. now rewrite Nat.sub_0_r.
  - unfold fv_clear. rewrite fb_spl by assumption. eexists. split; [reflexivity|]. split; [right; auto | reflexivity].
Qed.

Lemma destroy_rep v l : rep v l -> fv_destroy has v = Done (repeat Raw cap).
Proof. intros R. unfold fv_destroy. destruct (clear_rep v l R) as (v' & -> & _ & E). simpl. now rewrite E. Qed.

Lemma reserve_rep v l n : rep v l -> has || (n <=? cap) = true -> exists v', fv_reserve has cap v n = Done v' /\ rep v' l.
Proof.
  intros [(-> & HL)|(Hh & ->)] HF.
  - rewrite reserve_inl by (rewrite map_length; lia). destruct (n <=? cap) eqn:E.
    + eexists. split; [reflexivity|]. left. auto.
    + assert (Hh : has = true) by (destruct has; [reflexivity | simpl in HF; discriminate]). rewrite Hh. eexists. split; [reflexivity|]. right. auto.
  - unfold fv_reserve. rewrite fb_spl by assumption. rewrite Hh. simpl. exists (spl cap (map Some l)). split; [now destruct (n <=? cap)|]. right. auto.
Qed.

Lemma upd_map l i a : upd (map Some l) i (Some a) = map Some (upd l i a).
Proof. revert i. induction l as [|x l IH]; intros [|i]; simpl; try reflexivity. now rewrite IH. Qed.

Lemma set_rep v l i a : rep v l -> i < length l -> exists v', fv_set has v i a = Done v' /\ rep v' (upd l i a).
Proof.
  intros R Hi. unfold fv_set. rewrite (rep_size v l R). replace (i <? length l) with true by lia. cbn [assert bind]. destruct R as [(-> & HL)|(Hh & ->)].
  - rewrite store_inl by (rewrite map_length; lia). rewrite upd_map. eexists. split; [reflexivity|]. left. now rewrite upd_length.
  - unfold fv_store. rewrite fb_spl by assumption. cbn [fallback spl]. rewrite vset_done by (rewrite map_length; lia). cbn [bind m_size m_data]. rewrite upd_map.
    eexists. split; [reflexivity|]. right. auto.
Qed.

(** One step. *)
Lemma assert_split (b : bool) {B} (k : outcome B) r : (assert b ;;; k) = Done r -> b = true /\ k = Done r.
Proof. destruct b; simpl; [auto | discriminate]. Qed.

Lemma apply_done v l o l' r : rep v l -> s_apply vbound dflt l o = Done (l', r) ->
  exists v', fv_apply has cap dflt v o = Done (v', r) /\ rep v' l'.
Proof.
  intros R E. destruct o; cbn [s_apply fv_apply] in *.
  - apply assert_split in E. destruct E as [F E]. rewrite fits_vbound in F. injection E as <- <-.
    destruct (push_rep v l (ByCopy a) a eq_refl I R F) as (v' & b & -> & R'). simpl. eauto.
  - apply assert_split in E. destruct E as [F E]. rewrite fits_vbound in F. injection E as <- <-.
    destruct (push_rep v l (ByMove a) a eq_refl I R F) as (v' & b & -> & R'). simpl. eauto.
  - apply assert_split in E. destruct E as [F E]. rewrite fits_vbound in F. injection E as <- <-.
    destruct (emplace_back_rep v l (ByCopy a) a eq_refl I R F) as (v' & b & -> & R'). simpl. eauto.
  - apply assert_split in E. destruct E as [F E]. apply andb_true_iff in F. destruct F as [F1 F]. rewrite fits_vbound in F. injection E as <- <-.
    destruct (emplace_rep v l i (ByCopy a) a eq_refl I R ltac:(lia) F) as (v' & E & R'). unfold fv_insert. rewrite E. simpl. eauto.
  - apply assert_split in E. destruct E as [F E]. apply andb_true_iff in F. destruct F as [F1 F]. rewrite fits_vbound in F. injection E as <- <-.
    destruct (emplace_rep v l i (ByMove a) a eq_refl I R ltac:(lia) F) as (v' & E & R'). unfold fv_insert. rewrite E. simpl. eauto.
  - apply assert_split in E. destruct E as [F E]. injection E as <- <-. destruct (erase_rep v l i R ltac:(lia)) as (v' & -> & R'). simpl. eauto.
  - apply assert_split in E. destruct E as [F E]. injection E as <- <-. destruct (Nat.eq_dec i j) as [->|Hne].
    + exists v. rewrite firstn_skipn. split; [|exact R]. unfold fv_erase_range. destruct (IsUsingFallback has v) eqn:EF.
      * destruct R as [(-> & HL)|(Hh & ->)]; [rewrite fb_inl in EF; discriminate|]. cbn [fallback spl m_size m_data]. rewrite map_length, Nat.leb_refl.
        replace (j <=? length l) with true by lia. cbn [andb require bind]. now rewrite firstn_skipn.
      * now rewrite Nat.eqb_refl.
    + destruct (erase_range_rep v l i j R ltac:(lia)) as (v' & -> & R'). simpl. eauto.
  - apply assert_split in E. destruct E as [F E]. injection E as <- <-. destruct (pop_rep v l R ltac:(lia)) as (v' & -> & R'). simpl. eauto.
  - apply assert_split in E. destruct E as [F E]. rewrite fits_vbound in F. injection E as <- <-. destruct (resize_rep v l n dflt R F) as (v' & E & R'). unfold fv_resize. rewrite E. simpl. eauto.
  - apply assert_split in E. destruct E as [F E]. rewrite fits_vbound in F. injection E as <- <-. destruct (resize_rep v l n a R F) as (v' & -> & R'). simpl. eauto.
  - apply assert_split in E. destruct E as [F E]. rewrite fits_vbound in F. injection E as <- <-. destruct (reserve_rep v l n R F) as (v' & -> & R'). simpl. eauto.
  - injection E as <- <-. destruct (clear_rep v l R) as (v' & -> & R' & _). simpl. eauto.
  - apply assert_split in E. destruct E as [F E]. injection E as <- <-. destruct (set_rep v l i a R ltac:(lia)) as (v' & -> & R'). simpl. eauto.
Qed.

Lemma run_done ops : forall v l l' rs, rep v l -> s_run vbound dflt l ops = Done (l', rs) ->
  exists v', fv_run has cap dflt v ops = Done (v', rs) /\ rep v' l'.
Proof.
  induction ops as [|o ops IH]; intros v l l' rs R E; cbn [s_run fv_run] in *.
  - injection E as <- <-. eauto.
  - apply bind_done in E. destruct E as ([l1 r] & E1 & E). apply bind_done in E. destruct E as ([l2 rs2] & E2 & E). injection E as <- <-.
    destruct (apply_done v l o l1 r R E1) as (v1 & -> & R1). simpl. destruct (IH v1 l1 l2 rs2 R1 E2) as (v2 & -> & R2). simpl. eauto.
Qed.

(** What the plain sequence refuses is refused; without a fallback, always by an assertion. *)
Definition proper_range (o : vop A) : Prop := forall i, o <> EraseRange i i.

Lemma assert_fault (b : bool) {B} (k : outcome B) f : (assert b ;;; k) = Fault f -> (b = false /\ f = FAssert) \/ (b = true /\ k = Fault f).
Proof. destruct b; simpl; [auto | intros H; injection H as <-; auto]. Qed.

Lemma push_over v l (x : arg A) : rep v l -> has || (length l + 1 <=? cap) = false ->
  fv_push_back has cap v x = Fault FAssert /\ fv_emplace_back has cap v x = Fault FAssert.
Proof.
  intros R F. apply orb_false_iff in F. destruct F as [Hh F]. destruct R as [(-> & HL)|(Hh' & _)]; [|congruence].
  unfold fv_push_back, fv_emplace_back. rewrite grow_none by assumption. cbn [bind]. change (count (inl cap (map Some l))) with (length (map Some l)).
  rewrite map_length. replace (length l <? cap) with false by lia. auto.
Qed.

Lemma emplace_over v l i (x : arg A) : rep v l -> i <= length l -> has || (length l + 1 <=? cap) = false -> fv_emplace has cap v i x = Fault FAssert.
Proof.
  intros R Hi F. pose proof (rep_size v l R) as S. apply orb_false_iff in F. destruct F as [Hh F]. destruct R as [(-> & HL)|(Hh' & _)]; [|congruence].
  unfold fv_emplace. rewrite S. replace (i <=? length l) with true by lia. cbn [assert bind].
  rewrite grow_none by assumption. cbn [bind]. change (count (inl cap (map Some l))) with (length (map Some l)).
  rewrite map_length. replace (length l <? cap) with false by lia. reflexivity.
Qed.

Lemma emplace_out v l i (x : arg A) : rep v l -> length l < i -> fv_emplace has cap v i x = Fault FAssert.
Proof. intros R Hi. unfold fv_emplace. rewrite (rep_size v l R). now replace (i <=? length l) with false by lia. Qed.

Lemma resize_out v l n (x : arg A) : rep v l -> has || (n <=? cap) = false -> fv_resize_with has cap v n x = Fault FAssert.
Proof.
  intros R F. apply orb_false_iff in F. destruct F as [Hh F]. destruct R as [(-> & HL)|(Hh' & _)]; [|congruence].
  unfold fv_resize_with. rewrite fb_inl. replace (has && (cap <? n)) with false by (now rewrite Hh). now replace (n <=? cap) with false by lia.
Qed.

Lemma apply_fault v l o f : rep v l -> proper_range o -> s_apply vbound dflt l o = Fault f ->
  exists f', fv_apply has cap dflt v o = Fault f' /\ (IsUsingFallback has v = false -> f' = FAssert).
Proof.
  intros R P E. destruct o; cbn [s_apply fv_apply] in *; try (apply assert_fault in E; destruct E as [(E & _)|(_ & E)]; [|discriminate]); rewrite ?fits_vbound in E.
  - destruct (push_over v l (ByCopy a) R E) as [-> _]. simpl. eauto.
  - destruct (push_over v l (ByMove a) R E) as [-> _]. simpl. eauto.
  - destruct (push_over v l (ByCopy a) R E) as [_ ->]. simpl. eauto.
  - unfold fv_insert. destruct (Nat.le_gt_cases i (length l)) as [H|H]; [|rewrite (emplace_out v l i _ R H); simpl; eauto].
    rewrite (emplace_over v l i _ R H) by (destruct (Nat.leb_spec i (length l)); [exact E | lia]). simpl. eauto.
  - unfold fv_insert. destruct (Nat.le_gt_cases i (length l)) as [H|H]; [|rewrite (emplace_out v l i _ R H); simpl; eauto].
    rewrite (emplace_over v l i _ R H) by (destruct (Nat.leb_spec i (length l)); [exact E | lia]). simpl. eauto.
  - unfold fv_erase. rewrite (rep_size v l R), E. simpl. eauto.
  - assert (Hne : i <> j) by (intros ->; exact (P j eq_refl)). unfold fv_erase_range. rewrite (rep_size v l R).
    destruct (IsUsingFallback has v) eqn:EF.
    + destruct R as [(-> & HL)|(Hh & ->)]; [rewrite fb_inl in EF; discriminate|]. cbn [fallback spl]. rewrite map_length, E. simpl. eexists. split; [reflexivity | discriminate].
    + replace (i =? j) with false by lia. destruct (Nat.ltb_spec i j); [|simpl; eauto]. replace (j <=? length l) with false by lia. simpl. eauto.
  - unfold fv_pop_back. rewrite (rep_empty v l R). replace (length l =? 0) with true by lia. destruct (IsUsingFallback has v) eqn:EF; [|simpl; eauto].
    destruct R as [(-> & HL)|(Hh & ->)]; [rewrite fb_inl in EF; discriminate|]. cbn [fallback spl]. rewrite map_length. replace (length l =? 0) with true by lia.
    simpl. eexists. split; [reflexivity | discriminate].
  - unfold fv_resize. rewrite (resize_out v l n _ R E). simpl. eauto.
  - rewrite (resize_out v l n _ R E). simpl. eauto.
  - apply orb_false_iff in E. destruct E as [Hh E]. unfold fv_reserve. rewrite Hh, E. simpl. eauto.
  - discriminate.
  - unfold fv_set. rewrite (rep_size v l R), E. simpl. eauto.
Qed.

Lemma run_fault ops : forall v l f, rep v l -> Forall proper_range ops -> s_run vbound dflt l ops = Fault f ->
  exists f', fv_run has cap dflt v ops = Fault f' /\ (has = false -> f' = FAssert).
Proof.
  induction ops as [|o ops IH]; intros v l f R P E; cbn [s_run fv_run] in *; [discriminate|]. inversion P as [|? ? P1 P2]; subst.
  destruct (s_apply vbound dflt l o) as [[l1 r]|g] eqn:E1.
  - destruct (apply_done v l o l1 r R E1) as (v1 & -> & R1). simpl in *. destruct (s_run vbound dflt l1 ops) as [[? ?]|g] eqn:E2; [discriminate|].
    destruct (IH v1 l1 g R1 P2 E2) as (f' & -> & H). simpl. eauto.
  - destruct (apply_fault v l o g R P1 E1) as (f' & -> & H). simpl. exists f'. split; [reflexivity|]. intros Hh. apply H. unfold IsUsingFallback. now rewrite Hh.
Qed.

(** Constructors *)
Lemma new_size_rep n a : has || (n <=? cap) = true -> exists v, fv_new_size has cap n a = Done v /\ rep v (repeat a n).
Proof.
  intros F. destruct (resize_rep (fv_new cap) [] n a rep_new F) as (v & E & R). exists v. split; [exact E|]. rewrite firstn_nil in R. simpl in R. now rewrite Nat.sub_0_r in R.
Qed.

Lemma new_list_rep l : has || (length l <=? cap) = true -> exists v, fv_new_list has cap dflt l = Done v /\ rep v l.
Proof.
  intros F. unfold fv_new_list.
  destruct (foreach_range (fun k v => rep v (firstn k l)) (fun v i => ' (v, _) <- fv_emplace_back has cap v (ByCopy (nth i l dflt)) ;; Done v) 0 (length l) (fv_new cap))
    as (v & E & R); [lia | exact rep_new | |].
  - intros i v Hi R. destruct (emplace_back_rep v (firstn i l) (ByCopy (nth i l dflt)) (nth i l dflt) eq_refl I R) as (v' & b & -> & R').
    + rewrite firstn_length. destruct has; [reflexivity|]. simpl in *. lia.
    + simpl. exists v'. split; [reflexivity|]. rewrite (cut1 l i dflt) at 1 by lia. rewrite firstn_app, firstn_firstn.
      rewrite firstn_length. replace (Nat.min (i + 1) i) with i by lia. replace (i + 1 - Nat.min i (length l)) with 1 by lia. simpl. exact R'.
  - unfold range in E. rewrite Nat.sub_0_r in E. rewrite firstn_all in R. eauto.
Qed.
End Vector.
