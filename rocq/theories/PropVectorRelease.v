(** Property C124: FixedVector and HybridVector compiled without assertions. *)
From Verif Require Import CellModel CellProofs VectorSpec VectorModel VectorProofs VectorHistory VectorReleaseModel Release VectorRelease PropVector.

(** Any history whose assertions hold gives the same vector and the same returned positions without them; so do copying and moving. *)
Theorem C124_history : forall (A : Type) has cap (dflt : A) ops (v : fvec A), fv_run has cap dflt v ops <> Fault FAssert ->
  rv_run has cap dflt v ops = fv_run has cap dflt v ops.
Proof. intros A has cap dflt ops v. exact (follows_not _ _ (fol_vrun has cap dflt ops v)). Qed.
Print Assumptions C124_history.
Theorem C124_members : forall (A : Type) has cap (v : fvec A) (st : list (fvec A)) d s,
  (forall i, fv_at has v i <> Fault FAssert -> rv_at has v i = fv_at has v i) /\
  (fv_front has v <> Fault FAssert -> rv_front has v = fv_front has v) /\ (fv_back has v <> Fault FAssert -> rv_back has v = fv_back has v) /\
  (fv_copy has cap v <> Fault FAssert -> rv_copy has cap v = fv_copy has cap v) /\ (fv_move has cap v <> Fault FAssert -> rv_move has cap v = fv_move has cap v) /\
  (fv_assign has cap st d s <> Fault FAssert -> rv_assign has cap st d s = fv_assign has cap st d s) /\
  (fv_move_assign has cap st d s <> Fault FAssert -> rv_move_assign has cap st d s = fv_move_assign has cap st d s).
Proof.
  intros A has cap v st d s. split; [intros i; exact (follows_not _ _ (fol_at has v i))|]. split; [exact (follows_not _ _ (fol_front has v))|]. split; [exact (follows_not _ _ (fol_back has v))|].
  split; [exact (follows_not _ _ (fol_copy has cap v))|]. split; [exact (follows_not _ _ (fol_move has cap v))|]. split; [exact (follows_not _ _ (fol_assign has cap st d s)) | exact (follows_not _ _ (fol_move_assign has cap st d s))].
Qed.
Print Assumptions C124_members.
(** Constructors from a size and from a list, where the contents fit: no assertion fails, and the contents are those given. *)
Theorem C124_constructors : forall (A : Type) (has : bool) cap (dflt a : A) n l, (has = true \/ (n <= cap /\ length l <= cap)) ->
  (exists v, rv_new_size has cap n a = Done v /\ shows has cap v (repeat a n)) /\ (exists v, rv_new_list has cap dflt l = Done v /\ shows has cap v l).
Proof.
  intros A has cap dflt a n l H.
  assert (FL : follows (fv_new_list has cap dflt l) (rv_new_list has cap dflt l)).
  { unfold fv_new_list, rv_new_list. apply follows_foreach. intros v i _. apply follows_bind; [apply fol_emplace_back|]. intros (v', b) _. apply follows_refl. }
  assert (K : (exists v, fv_new_size has cap n a = Done v /\ shows has cap v (repeat a n)) /\ (exists v, fv_new_list has cap dflt l = Done v /\ shows has cap v l)).
  { destruct has; [exact (C33_hybrid_construct A cap dflt a n l) | destruct H as [H|(H1 & H2)]; [discriminate H | exact (C31_vector_construct A cap dflt a n l H1 H2)]]. }
  destruct K as ((v & E & S) & (v' & E' & S')). split; [exists v | exists v']; (split; [|assumption]).
  - exact (follows_done _ _ _ (fol_resize_with has cap (fv_new cap) n (ByCopy a)) E).
  - exact (follows_done _ _ _ FL E').
Qed.
Print Assumptions C124_constructors.
(** Histories the (bounded, or with a fallback unbounded) sequence accepts give its contents. *)
Theorem C124_specified : forall (A : Type) (has : bool) cap (dflt : A) ops l rs, s_run (if has then None else Some cap) dflt [] ops = Done (l, rs) ->
  exists v, rv_run has cap dflt (fv_new cap) ops = Done (v, rs) /\ shows has cap v l.
Proof.
  intros A has cap dflt ops l rs E. assert (H : exists v, fv_run has cap dflt (fv_new cap) ops = Done (v, rs) /\ shows has cap v l).
  { destruct has; [exact (C33_hybrid_history A cap dflt ops l rs E) | exact (C31_vector_history A cap dflt ops l rs E)]. }
  destruct H as (v & R & S). exists v. split; [exact (follows_done _ _ _ (fol_vrun has cap dflt ops _) R) | exact S].
Qed.
Print Assumptions C124_specified.

Section Violations.
Context {A : Type}.
Variables (has : bool) (cap : nat) (dflt : A).
Implicit Types (l : list A) (v : fvec A).

Lemma cells_length (q : list (option A)) : length q <= cap -> length (map Obj q ++ repeat Raw (cap - length q)) = cap.
Proof. intros L. rewrite app_length, map_length, repeat_length. lia. Qed.
Lemma cells_raw (q : list (option A)) i : length q <= i -> i < cap -> nth_error (map Obj q ++ repeat Raw (cap - length q)) i = Some Raw.
Proof.
  intros L I. rewrite nth_error_app2 by (now rewrite map_length). rewrite map_length. rewrite (nth_error_nth' _ Raw) by (rewrite repeat_length; lia). now rewrite nth_repeat.
Qed.
Lemma construct_out (m : list (cell A)) i o : length m <= i -> construct m i o = Fault FUB.
Proof. intros L. unfold construct. now rewrite (proj2 (nth_error_None _ _) L). Qed.
Lemma construct_length (m m' : list (cell A)) i o : construct m i o = Done m' -> length m' = length m.
Proof. unfold construct. destruct (nth_error m i) as [[|?]|]; try discriminate. intros [= <-]. apply upd_length. Qed.
Lemma rgrow_none (q : list (option A)) : has = false -> rCheckFallbackOnGrow has cap (inl cap q) = Done (inl cap q, false).
Proof. intros ->. reflexivity. Qed.

(** A range of constructions that leaves the storage. *)
Lemma construct_over (t : target A) v (m : list (cell A)) a n : (exists o, t = Outside o) -> length m = cap -> a <= cap -> cap < n ->
  foreach (range a n) (fun m i => o <- fetch (FV (m_size v) m (fallback v)) t ;; construct m i o) m = Fault FUB.
Proof.
  intros (o & ->) L LA LN. apply (foreach_undefined (fun m => length m = cap)); [| |exact L].
  - intros m' i _ L'. cbn [fetch bind]. destruct (construct m' i (Some o)) as [m2|f] eqn:E.
    + left. exists m2. split; [reflexivity|]. rewrite (construct_length _ _ _ _ E). exact L'.
    + right. unfold construct in E. destruct (nth_error m' i) as [[|?]|]; congruence.
  - exists cap. split; [apply in_seq; lia|]. intros m' L'. cbn [fetch bind]. apply construct_out. lia.
Qed.

Lemma emplace_violation v l i (x : arg A) : outside x -> rep has cap v l -> (i <=? length l) && fits (vbound has cap) (length l + 1) = false ->
  rv_emplace has cap v i x = Fault FUB \/
  (length l < i < cap /\ exists v', rv_emplace has cap v i x = Done (v', i, is_move x) /\ fv_size has v' = length l + 1 /\ rv_at has v' (length l) = Fault FUB /\ fv_destroy has v' = Fault FUB).
Proof.
  intros HX R V. rewrite fits_vbound in V. unfold rv_emplace. destruct R as [(-> & HL)|(Hh & ->)].
  - destruct (has && (length l =? cap)) eqn:FULL.
    + apply andb_true_iff in FULL. destruct FULL as (Hh & FL). apply Nat.eqb_eq in FL. rewrite Hh in V. cbn [orb] in V. rewrite andb_true_r in V. apply Nat.leb_gt in V.
      left. assert (G : rCheckFallbackOnGrow has cap (inl cap (map Some l)) = Done (spl cap (map Some l), true)).
      { apply (follows_done _ _ _ (fol_grow has cap _)). apply grow_full; [exact Hh | now rewrite map_length]. }
      rewrite G. cbn [bind]. unfold EmplaceInFallback. cbn [spl fallback]. rewrite map_length. destruct (Nat.leb_spec i (length l)); [lia | reflexivity].
    + assert (G : rCheckFallbackOnGrow has cap (inl cap (map Some l)) = Done (inl cap (map Some l), false)).
      { destruct has eqn:Hh; [|reflexivity]. apply (follows_done _ _ _ (fol_grow true cap _)). apply grow_inl. rewrite map_length. cbn [andb] in FULL. apply Nat.eqb_neq in FULL. lia. }
      rewrite G. cbn [bind]. cbn [inl count m_size m_data fallback]. rewrite !map_length.
      assert (CL := cells_length (map Some l)). rewrite map_length in CL. specialize (CL HL).
      destruct (Nat.ltb_spec i (length l)) as [I|I].
      * left. assert (length l = cap) as FL by (destruct has; cbn [andb orb] in *; lia).
        unfold take. rewrite (nth_error_nth' _ Raw) by lia. rewrite app_nth1 by (rewrite !map_length; lia).
        rewrite (nth_indep _ Raw (Obj None)) by (rewrite !map_length; lia). rewrite map_nth. cbn [bind]. rewrite construct_out by (rewrite upd_length; lia). reflexivity.
      * cbn [bind]. rewrite fetch_outside by exact HX. cbn [bind inl m_data]. destruct (Nat.lt_ge_cases i cap) as [C|C]; [|left; rewrite construct_out by (rewrite map_length; lia); reflexivity].
        assert (i <> length l) as NE by (intros ->; destruct has; cbn [andb orb] in *; lia).
        assert (CO : forall o, construct (map Obj (map Some l) ++ repeat Raw (cap - length (map Some l))) i o = Done (upd (map Obj (map Some l) ++ repeat Raw (cap - length (map Some l))) i (Obj o))).
        { intros o. unfold construct. rewrite (cells_raw (map Some l) i) by (rewrite ?map_length; lia). reflexivity. }
        rewrite CO. cbn [bind]. right. split; [lia|]. eexists. split; [reflexivity|].
        set (m := upd _ i _). cbn [count m_size fallback inl].
        assert (FB : IsUsingFallback has (FV (Count (length (map Some l) + 1)) m []) = false) by (unfold IsUsingFallback; cbn; apply andb_false_r).
        assert (NTH : nth_error m (length l) = Some Raw).
        { unfold m. rewrite nth_error_upd. destruct (Nat.eqb_spec (length l) i); [lia|]. cbn [andb]. apply (cells_raw (map Some l)); rewrite ?map_length; lia. }
        rewrite map_length in FB |- *. split; [unfold fv_size; rewrite FB; reflexivity|]. split.
        -- unfold rv_at, fv_load. rewrite FB. cbn [m_data]. unfold read. now rewrite NTH.
        -- unfold fv_destroy, fv_clear. rewrite FB. cbn [count m_size m_data]. unfold destroy_range.
           rewrite (foreach_undefined (fun m => nth_error m (length l) = Some Raw)); [reflexivity | | | exact NTH].
           ++ intros m' k K N. unfold destroy. destruct (nth_error m' k) as [[|o]|] eqn:E; [now right | | now right]. left. eexists. split; [reflexivity|].
              rewrite nth_error_upd. destruct (Nat.eqb_spec (length l) k) as [<-|]; [congruence|]. exact N.
           ++ exists (length l). split; [apply in_seq; lia|]. intros m' N. unfold destroy. now rewrite N.
  - left. rewrite Hh in V. cbn [orb] in V. rewrite andb_true_r in V. apply Nat.leb_gt in V.
    rewrite (follows_done _ _ _ (fol_grow has cap _) (grow_spl has cap (map Some l) Hh)). cbn [bind]. unfold EmplaceInFallback. cbn [spl fallback]. rewrite map_length. destruct (Nat.leb_spec i (length l)); [lia | reflexivity].
Qed.

Lemma push_violation v l (x : arg A) : outside x -> rep has cap v l -> fits (vbound has cap) (length l + 1) = false ->
  rv_push_back has cap v x = Fault FUB /\ rv_emplace_back has cap v x = Fault FUB.
Proof.
  intros HX R V. rewrite fits_vbound in V. apply orb_false_iff in V. destruct V as (Hh & V). apply Nat.leb_gt in V. destruct R as [(-> & HL)|(Q & _)]; [|congruence].
  assert (CL := cells_length (map Some l)). rewrite map_length in CL. specialize (CL HL).
  unfold rv_push_back, rv_emplace_back. rewrite rgrow_none by exact Hh. cbn [bind]. rewrite fetch_outside by exact HX. cbn [bind inl m_data count m_size]. rewrite !map_length.
  rewrite construct_out by lia. split; reflexivity.
Qed.
Lemma resize_violation v l n a : rep has cap v l -> fits (vbound has cap) n = false -> rv_resize_with has cap v n (ByCopy a) = Fault FUB.
Proof.
  intros R V. rewrite fits_vbound in V. apply orb_false_iff in V. destruct V as (Hh & V). apply Nat.leb_gt in V. destruct R as [(-> & HL)|(Q & _)]; [|congruence].
  assert (CL := cells_length (map Some l)). rewrite map_length in CL. specialize (CL HL).
  unfold rv_resize_with. rewrite fb_inl. rewrite Hh. cbn [andb]. cbn [inl count m_size m_data]. rewrite !map_length. destruct (Nat.ltb_spec (length l) n); [|lia].
  match goal with |- bind ?F _ = _ => replace F with (@Fault (list (cell A)) FUB); [reflexivity|] end. symmetry.
  apply (construct_over _ (inl cap (map Some l))); [cbn; eauto | exact CL | exact HL | exact V].
Qed.

(** What a call does whose precondition is violated: it is undefined, except that Reserve beyond the capacity and erasing an empty
    range anywhere do nothing, and that inserting beyond the end of a vector with room leaves a hole, over which the size, the next accesses and the destructor go. *)
Theorem C124_violations_refuted : forall v l o f, rep has cap v l -> s_apply (vbound has cap) dflt l o = Fault f ->
  rv_apply has cap dflt v o = Fault FUB \/
  (exists n, o = Reserve n /\ rv_apply has cap dflt v o = Done (v, None)) \/
  (exists i, o = EraseRange i i /\ rv_apply has cap dflt v o = Done (v, Some i)) \/
  (exists i a, (o = Insert i a \/ o = InsertMove i a) /\ length l < i < cap /\
     exists v', rv_apply has cap dflt v o = Done (v', Some i) /\ fv_size has v' = length l + 1 /\ rv_at has v' (length l) = Fault FUB /\ fv_destroy has v' = Fault FUB).
Proof.
  intros v l o f R E.
  assert (AS : forall (c : bool) (B : Type) (k : B), (assert c ;;; Done k) = Fault f -> c = false) by (intros [|] B k Q; [discriminate | reflexivity]).
  destruct o as [a|a|a|i a|i a|i|i j| |n|n a|n| |i a]; cbn [s_apply] in E; try (apply AS in E); cbn [rv_apply]; unfold rv_insert, rv_resize.
  - left. destruct (push_violation v l (ByCopy a) I R E) as (P & _). now rewrite P.
  - left. destruct (push_violation v l (ByMove a) I R E) as (P & _). now rewrite P.
  - left. destruct (push_violation v l (ByCopy a) I R E) as (_ & P). now rewrite P.
  - destruct (emplace_violation v l i (ByCopy a) I R E) as [P|(L & v' & P & Q)]; [left; now rewrite P|]. right; right; right. exists i, a. split; [now left|]. split; [exact L|]. exists v'. rewrite P. split; [reflexivity | exact Q].
  - destruct (emplace_violation v l i (ByMove a) I R E) as [P|(L & v' & P & Q)]; [left; now rewrite P|]. right; right; right. exists i, a. split; [now right|]. split; [exact L|]. exists v'. rewrite P. split; [reflexivity | exact Q].
  - left. apply Nat.ltb_ge in E. unfold rv_erase. destruct R as [(-> & HL)|(Hh & ->)].
    + rewrite fb_inl. cbn [inl count m_size]. rewrite map_length. destruct (Nat.leb_spec (i + 1) (length l)); [lia | reflexivity].
    + rewrite fb_spl by exact Hh. cbn [spl fallback]. rewrite map_length. destruct (Nat.ltb_spec i (length l)); [lia | reflexivity].
  - unfold rv_erase_range. destruct R as [(-> & HL)|(Hh & ->)].
    + rewrite fb_inl. destruct (Nat.eq_dec i j) as [->|NE].
      * right; right; left. exists j. split; [reflexivity|]. now rewrite Nat.eqb_refl.
      * left. rewrite (proj2 (Nat.eqb_neq i j) NE). cbn [inl count m_size]. rewrite map_length. replace ((i <? j) && (j <=? length l)) with false; [reflexivity|]. symmetry. apply andb_false_iff in E. apply andb_false_iff. lia.
    + left. rewrite fb_spl by exact Hh. cbn [spl fallback]. rewrite map_length. rewrite E. reflexivity.
  - left. apply Nat.ltb_ge in E. unfold rv_pop_back. destruct R as [(-> & HL)|(Hh & ->)].
    + rewrite fb_inl. cbn [inl count m_size]. rewrite map_length. destruct (Nat.ltb_spec 0 (length l)); [lia | reflexivity].
    + rewrite fb_spl by exact Hh. cbn [spl fallback]. rewrite map_length. replace (length l =? 0) with true by lia. reflexivity.
  - left. now rewrite (resize_violation v l n dflt R E).
  - left. now rewrite (resize_violation v l n a R E).
  - right; left. exists n. split; [reflexivity|]. rewrite fits_vbound in E. apply orb_false_iff in E. destruct E as (-> & _). reflexivity.
  - discriminate.
  - left. apply Nat.ltb_ge in E. unfold rv_set, fv_store. destruct R as [(-> & HL)|(Hh & ->)].
    + rewrite fb_inl. cbn [inl m_data]. unfold assign. destruct (Nat.lt_ge_cases i cap) as [C|C].
      * rewrite (cells_raw (map Some l) i) by (rewrite ?map_length; lia). reflexivity.
      * rewrite (proj2 (nth_error_None _ _)); [reflexivity|]. rewrite (cells_length (map Some l)) by (rewrite map_length; exact HL). exact C.
    + rewrite fb_spl by exact Hh. cbn [spl fallback]. unfold vset. rewrite map_length. destruct (Nat.ltb_spec i (length l)); [lia | reflexivity].
Qed.
(** Reading outside is undefined. *)
Theorem C124_reads : forall v l i, rep has cap v l -> length l <= i -> rv_at has v i = Fault FUB /\ (l = [] -> rv_front has v = Fault FUB /\ rv_back has v = Fault FUB).
Proof.
  assert (K : forall v l i, rep has cap v l -> length l <= i -> fv_load has v i = Fault FUB).
  { intros v l i R L. unfold fv_load. destruct R as [(-> & HL)|(Hh & ->)].
    - rewrite fb_inl. cbn [inl m_data]. unfold read. destruct (Nat.lt_ge_cases i cap) as [C|C].
      + rewrite (cells_raw (map Some l) i) by (rewrite ?map_length; lia). reflexivity.
      + rewrite (proj2 (nth_error_None _ _)); [reflexivity|]. rewrite (cells_length (map Some l)) by (rewrite map_length; exact HL). exact C.
    - rewrite fb_spl by exact Hh. cbn [spl fallback]. unfold vget. rewrite (proj2 (nth_error_None _ _)); [reflexivity | now rewrite map_length]. }
  intros v l i R L. split; [exact (K v l i R L)|]. intros ->. split; [exact (K v [] 0 R (Nat.le_refl 0))|]. unfold rv_back. rewrite (rep_size has cap v [] R). exact (K v [] 0 R (Nat.le_refl 0)).
Qed.
End Violations.
Print Assumptions C124_violations_refuted.
Print Assumptions C124_reads.
Example C124_nonvacuous :
  fv_run false 3 0 (fv_new 3) [PushCopy 1; Insert 2 7] = Fault FAssert /\
  rv_run false 3 0 (fv_new 3) [PushCopy 1; Insert 2 7] = Done (FV (Count 2) [Obj (Some 1); Raw; Obj (Some 7)] [], [None; Some 2]) /\
  rv_run false 3 0 (fv_new 3) [PushCopy 1; Insert 3 7] = Fault FUB /\
  rv_run false 3 0 (fv_new 3) [PushCopy 1; Reserve 9; EraseRange 8 8] = fv_run false 3 0 (fv_new 3) [PushCopy 1; Reserve 2; EraseRange 8 8] /\
  rv_run true 1 0 (fv_new 1) [PushCopy 1; PushCopy 2; Erase 0] = Done (FV FallbackInUse [Raw] [Some 2], [None; None; Some 0]).
Proof. repeat split; reflexivity. Qed.
