(** Copies, moves and self-references of FixedVector / HybridVector. *)
From Verif Require Import CellModel CellProofs VectorModel VectorProofs VectorHistory.

Lemma vget_upd_same {A} (l : list A) i x : i < length l -> vget (upd l i x) i = Done x.
Proof. intros H. unfold vget. rewrite nth_error_upd, Nat.eqb_refl. now replace (i <? length l) with true by lia. Qed.

Lemma vget_upd_other {A} (l : list A) i x k : k <> i -> vget (upd l i x) k = vget l k.
Proof. intros H. unfold vget. rewrite nth_error_upd. now replace (k =? i) with false by lia. Qed.

Lemma upd_upd {A} (l : list A) i x y : upd (upd l i x) i y = upd l i y.
Proof. revert i. induction l as [|z l IH]; intros [|i]; simpl; try reflexivity. now rewrite IH. Qed.

Lemma upd_comm {A} (l : list A) i j x y : i <> j -> upd (upd l i x) j y = upd (upd l j y) i x.
Proof. revert i j. induction l as [|z l IH]; intros [|i] [|j] H; simpl; try reflexivity; try lia. rewrite IH by lia. reflexivity. Qed.

Lemma upd_id {A} (l : list A) i x : nth_error l i = Some x -> upd l i x = l.
Proof. revert i. induction l as [|z l IH]; intros [|i]; simpl; try discriminate; [congruence|]. intros H. now rewrite IH. Qed.

Lemma vget_some {A} (l : list A) i x : nth_error l i = Some x -> vget l i = Done x.
Proof. intros H. unfold vget. now rewrite H. Qed.

Lemma firstn_next {A} (q : list A) i d : i < length q -> firstn (i + 1) q = firstn i q ++ [nth i q d].
Proof.
  intros H. rewrite (cut1 q i d) at 1 by assumption. rewrite firstn_app, firstn_firstn, firstn_length.
  replace (Nat.min (i + 1) i) with i by lia. now replace (i + 1 - Nat.min i (length q)) with 1 by lia.
Qed.

Section Vector.
Context {A : Type}.
Variables (has : bool) (cap : nat) (dflt : A).
Implicit Types (q l : list (option A)) (v : fvec A).
Notation inl := (@VectorProofs.inl A cap).
Notation spl := (@VectorProofs.spl A cap).

Lemma push_value_inl q o : length q < cap -> push_value has cap (inl q) o = Done (inl (q ++ [o]), false).
Proof.
  intros HL. unfold push_value. rewrite grow_inl by assumption. cbn [bind]. change (count (inl q)) with (length q). replace (length q <? cap) with true by lia.
  cbn [assert bind m_data fallback VectorProofs.inl]. rewrite (raws_S (cap - length q)) by lia. rewrite construct_mid by (now rewrite map_length).
  cbn [bind]. now rewrite inl_cells.
Qed.

Lemma push_value_spl q o : has = true -> push_value has cap (spl q) o = Done (spl (q ++ [o]), true).
Proof. intros Hh. unfold push_value. rewrite grow_spl by assumption. reflexivity. Qed.

Lemma at_inl q i : i < length q -> fv_at has (inl q) i = Done (nth i q None).
Proof. intros H. unfold fv_at. rewrite size_inl. replace (i <? length q) with true by lia. cbn [assert bind]. now apply load_inl. Qed.

Lemma new_inl : FV (Count 0) (repeat Raw cap) [] = inl (@nil (option A)).
Proof. unfold VectorProofs.inl. simpl. now rewrite Nat.sub_0_r. Qed.

(** *** Construction *)
Lemma copy_inl q : length q <= cap -> fv_copy has cap (inl q) = Done (inl q).
Proof.
  intros HL. unfold fv_copy. rewrite fb_inl, size_inl. cbn [negb fallback VectorProofs.inl]. fold (inl q).
  destruct (foreach_range (fun i v => v = inl (firstn i q)) (fun v i => o <- fv_at has (inl q) i ;; ' (v, _) <- push_value has cap v o ;; Done v) 0 (length q)
    (FV (Count 0) (repeat Raw cap) [])) as (v & E & ->); [lia | apply new_inl | |].
  - intros i v Hi ->. rewrite at_inl by lia. cbn [bind]. rewrite push_value_inl by (rewrite firstn_length; lia). cbn [bind].
    eexists. split; [reflexivity|]. now rewrite <- firstn_next by lia.
  - now rewrite firstn_all in E.
Qed.

Lemma copy_spl q : has = true -> fv_copy has cap (spl q) = Done (spl q).
Proof. intros Hh. unfold fv_copy. now rewrite fb_spl. Qed.

Definition moved_out i q : list (option A) := repeat None i ++ skipn i q.

Lemma moved_out_length i q : i <= length q -> length (moved_out i q) = length q.
Proof. intros H. unfold moved_out. rewrite app_length, repeat_length, skipn_length. lia. Qed.

Lemma moved_out_all q : moved_out (length q) q = repeat None (length q).
Proof. unfold moved_out. rewrite skipn_all. apply app_nil_r. Qed.

Lemma take_next i q R : i < length q ->
  take (map (@Obj A) (moved_out i q) ++ R) i = Done (nth i q None, map Obj (moved_out (i + 1) q) ++ R).
Proof.
  intros H. unfold moved_out. rewrite !map_app, <- !app_assoc.
  assert (E : skipn i q = nth i q None :: skipn (i + 1) q).
  { assert (L : length (firstn i q) = i) by (rewrite firstn_length; lia). rewrite (cut1 q i None) at 1 by assumption. rewrite skipn_app, L, Nat.sub_diag.
    rewrite skipn_all2 by lia. reflexivity. }
  rewrite E. cbn [map app]. rewrite take_mid by (now rewrite map_length, repeat_length). do 2 f_equal. rewrite repeat_app, map_app, <- app_assoc. reflexivity.
Qed.

Lemma read_next i q R : i < length q -> read (map (@Obj A) (moved_out i q) ++ R) i = Done (nth i q None).
Proof.
  intros H. change (map (@Obj A) (moved_out i q) ++ R) with ([] ++ map (@Obj A) (moved_out i q) ++ R).
  rewrite (read_nth _ _ _ _ None) by (simpl; rewrite ?moved_out_length; lia). simpl. rewrite Nat.sub_0_r. unfold moved_out.
  rewrite app_nth2 by (rewrite repeat_length; lia). rewrite repeat_length, Nat.sub_diag, nth_skipn. now rewrite Nat.add_0_r.
Qed.

Lemma inl_data q : m_data (inl q) = map Obj q ++ repeat Raw (cap - length q).
Proof. reflexivity. Qed.

Lemma moved_next i q : i < length q ->
  FV (m_size (inl (moved_out i q))) (map Obj (moved_out (i + 1) q) ++ repeat Raw (cap - length (moved_out i q))) (fallback (inl (moved_out i q)))
  = inl (moved_out (i + 1) q).
Proof. intros H. unfold VectorProofs.inl. cbn [m_size fallback]. rewrite !moved_out_length by lia. reflexivity. Qed.

Lemma move_inl q : length q <= cap -> fv_move has cap (inl q) = Done (inl q, inl (repeat None (length q))).
Proof.
  intros HL. unfold fv_move. cbn [fallback VectorProofs.inl m_size m_data]. fold (inl q). rewrite fb_inl, size_inl. cbn [negb].
  destruct (foreach_range (fun i p => p = (inl (firstn i q), inl (moved_out i q)))
    (fun '(v, src) i => assert (i <? fv_size has src) ;;; ' (o, m) <- take (m_data src) i ;; ' (v, _) <- push_value has cap v o ;; Done (v, FV (m_size src) m (fallback src)))
    0 (length q) (FV (Count 0) (repeat Raw cap) [], inl q)) as (p & E & ->); [lia | now rewrite new_inl | |].
  - intros i p Hi ->. rewrite size_inl, moved_out_length by lia. replace (i <? length q) with true by lia. cbn [assert bind].
    rewrite inl_data, take_next by lia. cbn [bind]. rewrite push_value_inl by (rewrite firstn_length; lia). cbn [bind].
    eexists. split; [reflexivity|]. now rewrite moved_next, <- firstn_next by lia.
  - now rewrite E, firstn_all, moved_out_all.
Qed.

Lemma move_spl q : has = true -> fv_move has cap (spl q) = Done (spl q, spl []).
Proof. intros Hh. unfold fv_move. cbn [fallback VectorProofs.spl m_size m_data]. fold (spl []). now rewrite fb_spl. Qed.

(** *** Copy assignment *)
Lemma reserve_small v n : n <= cap -> fv_reserve has cap v n = Done v.
Proof. intros H. unfold fv_reserve. replace (n <=? cap) with true by lia. now destruct has. Qed.

Lemma clear_spl q : has = true -> fv_clear has (spl q) = Done (spl []).
Proof. intros Hh. unfold fv_clear. now rewrite fb_spl. Qed.

(** A target ready to receive pushes: inline or spilled. *)
Definition holds (w : list (option A) -> fvec A) : Prop := w = inl \/ (has = true /\ w = spl).

Lemma clear_holds w q : holds w -> length q <= cap \/ w = spl -> fv_clear has (w q) = Done (w []).
Proof.
  intros [->|(Hh & ->)] H; [|now apply clear_spl]. destruct H as [H|H]; [now apply clear_inl|].
  apply (f_equal (fun w => m_size (w []))) in H. discriminate.
Qed.

Lemma push_holds w q o : holds w -> length q < cap -> exists b, push_value has cap (w q) o = Done (w (q ++ [o]), b) /\ (b = true <-> w = spl).
Proof.
  intros [->|(Hh & ->)] HL.
  - exists false. split; [now apply push_value_inl|]. split; [discriminate|]. intros H. apply (f_equal (fun w => m_size (w []))) in H. discriminate.
  - exists true. split; [now apply push_value_spl|]. tauto.
Qed.

Lemma assign_from_inline st d s w q0 q : d <> s -> holds w -> (length q0 <= cap \/ w = spl) ->
  nth_error st d = Some (w q0) -> nth_error st s = Some (inl q) -> length q <= cap ->
  fv_assign has cap st d s = Done (upd st d (w q)).
Proof.
  intros Hds Hw H0 Ed Es HL. assert (Ld : d < length st) by (apply nth_error_Some; congruence).
  unfold fv_assign. rewrite (vget_some _ _ _ Es), (vget_some _ _ _ Ed). cbn [bind]. rewrite fb_inl. rewrite clear_holds by assumption. cbn [bind].
  rewrite vset_done by assumption. cbn [bind]. rewrite (vget_upd_other st d _ s) by congruence. rewrite (vget_some _ _ _ Es). cbn [bind].
  rewrite vget_upd_same by assumption. cbn [bind]. rewrite size_inl, reserve_small by assumption. cbn [bind].
  rewrite vset_done by (now rewrite upd_length). rewrite upd_upd. cbn [bind]. rewrite (vget_upd_other st d _ s) by congruence. rewrite (vget_some _ _ _ Es). cbn [bind].
  rewrite size_inl.
  destruct (foreach_range (fun i st' => st' = upd st d (w (firstn i q)))
    (fun st i => src <- vget st s ;; dst <- vget st d ;; o <- fv_at has src i ;; ' (dst, _) <- push_value has cap dst o ;; vset st d dst)
    0 (length q) (upd st d (w []))) as (st' & E & ->); [lia | reflexivity | |].
  - intros i st' Hi ->. rewrite vget_upd_other by congruence. rewrite (vget_some _ _ _ Es). cbn [bind]. rewrite vget_upd_same by assumption. cbn [bind].
    rewrite at_inl by lia. cbn [bind]. destruct (push_holds w (firstn i q) (nth i q None) Hw) as (b & -> & _); [rewrite firstn_length; lia|]. cbn [bind].
    rewrite vset_done by (now rewrite upd_length). rewrite upd_upd. eexists. split; [reflexivity|]. now rewrite (firstn_next q i None) by lia.
  - now rewrite E, firstn_all.
Qed.

Lemma assign_from_spilled st d s v q : has = true -> nth_error st d = Some v -> nth_error st s = Some (spl q) ->
  fv_assign has cap st d s = Done (upd st d (FV FallbackInUse (m_data v) q)).
Proof.
  intros Hh Ed Es. assert (Ld : d < length st) by (apply nth_error_Some; congruence).
  unfold fv_assign. rewrite (vget_some _ _ _ Es), (vget_some _ _ _ Ed). cbn [bind]. rewrite fb_spl by assumption. now rewrite vset_done.
Qed.

Lemma assign_self_inline st d q : nth_error st d = Some (inl q) -> length q <= cap -> fv_assign has cap st d d = Done (upd st d (inl [])).
Proof.
  intros Ed HL. assert (Ld : d < length st) by (apply nth_error_Some; congruence).
  unfold fv_assign. rewrite (vget_some _ _ _ Ed). cbn [bind]. rewrite fb_inl. rewrite clear_inl by assumption. cbn [bind].
  rewrite vset_done by assumption. cbn [bind]. rewrite vget_upd_same by assumption. cbn [bind]. rewrite size_inl, reserve_small by (simpl; lia). cbn [bind].
  rewrite vset_done by (now rewrite upd_length). rewrite upd_upd. cbn [bind]. rewrite vget_upd_same by assumption. cbn [bind]. rewrite size_inl. reflexivity.
Qed.

(** *** Move assignment *)
Lemma move_assign_from_inline st d s w q0 q : d <> s -> holds w -> (length q0 <= cap \/ w = spl) ->
  nth_error st d = Some (w q0) -> nth_error st s = Some (inl q) -> length q <= cap ->
  fv_move_assign has cap st d s = Done (upd (upd st d (w q)) s (if has && match m_size (w []) with FallbackInUse => true | _ => false end then inl q else inl (repeat None (length q)))).
Proof.
  intros Hds Hw H0 Ed Es HL. assert (Ld : d < length st) by (apply nth_error_Some; congruence). assert (Ls : s < length st) by (apply nth_error_Some; congruence).
  assert (H1 : (if has then
           src <- vget st s ;; dst <- vget st d ;; st <- vset st d (FV (m_size dst) (m_data dst) (fallback src)) ;; src <- vget st s ;;
           vset st s (FV (m_size src) (m_data src) []) else Done st) = Done (if has then upd st d (match m_size (w []) with FallbackInUse => w [] | _ => w q0 end) else st)).
  { destruct has eqn:Hh; [|reflexivity]. rewrite (vget_some _ _ _ Es), (vget_some _ _ _ Ed). cbn [bind]. rewrite vset_done by assumption. cbn [bind].
    rewrite vget_upd_other by congruence. rewrite (vget_some _ _ _ Es). cbn [bind]. rewrite vset_done by (now rewrite upd_length). f_equal.
    rewrite upd_id; [|rewrite nth_error_upd; replace (s =? d) with false by lia; exact Es].
    destruct Hw as [->|(_ & ->)]; reflexivity. }
  set (w0 := if has then match m_size (w []) with FallbackInUse => w [] | _ => w q0 end else w q0) in *.
  assert (HC : fv_clear has w0 = Done (w [])).
  { unfold w0. destruct Hw as [->|(Hh & ->)]; cbn [m_size VectorProofs.inl VectorProofs.spl].
    - assert (HL0 : length q0 <= cap) by (destruct H0 as [H0|H0]; [exact H0 | apply (f_equal (fun w => m_size (w []))) in H0; discriminate]).
      fold (inl q0). destruct has; now apply clear_inl.
    - rewrite Hh. rewrite <- Hh. now apply clear_spl. }
  set (st1 := upd st d w0).
  assert (E1 : (if has then upd st d (match m_size (w []) with FallbackInUse => w [] | _ => w q0 end) else st) = st1).
  { unfold st1, w0. destruct has; [reflexivity|]. symmetry. now apply upd_id. }
  unfold fv_move_assign. rewrite H1, E1. cbn [bind]. unfold st1.
  rewrite vget_upd_other by congruence. rewrite (vget_some _ _ _ Es). cbn [bind]. rewrite vget_upd_same by assumption. cbn [bind]. rewrite fb_inl.
  rewrite HC. cbn [bind]. rewrite vset_done by (now rewrite upd_length). rewrite upd_upd. cbn [bind].
  rewrite vget_upd_other by congruence. rewrite (vget_some _ _ _ Es). cbn [bind]. rewrite vget_upd_same by assumption. cbn [bind].
  rewrite size_inl, reserve_small by assumption. cbn [bind]. rewrite vset_done by (now rewrite upd_length). rewrite upd_upd. cbn [bind].
  rewrite vget_upd_other by congruence. rewrite (vget_some _ _ _ Es). cbn [bind]. rewrite size_inl.
  set (sp := has && match m_size (w []) with FallbackInUse => true | _ => false end).
  assert (SP : sp = true <-> w = spl).
  { unfold sp. destruct Hw as [->|(Hh & ->)]; cbn; [rewrite andb_false_r|rewrite Hh]; split; try discriminate; auto.
    intros H. apply (f_equal (fun w => m_size (w []))) in H. discriminate. }
  destruct (foreach_range (fun i st' => st' = upd (upd st d (w (firstn i q))) s (if sp then inl q else inl (moved_out i q)))
    (fun st i => src <- vget st s ;; assert (i <? fv_size has src) ;;; dst <- vget st d ;; o <- read (m_data src) i ;;
        ' (dst, copied) <- push_value has cap dst o ;; st <- vset st d dst ;; src <- vget st s ;;
        m <- (if copied : bool then Done (m_data src) else ' (_, m) <- take (m_data src) i ;; Done m) ;;
        vset st s (FV (m_size src) m (fallback src)))
    0 (length q) (upd st d (w []))) as (st' & E & ->).
  - lia.
  - simpl. unfold moved_out. simpl. replace (if sp then inl q else inl q) with (inl q) by (now destruct sp). symmetry. apply upd_id.
    rewrite nth_error_upd. now replace (s =? d) with false by lia.
  - intros i st' Hi ->. set (src := if sp then inl q else inl (moved_out i q)).
    assert (SZ : fv_size has src = length q) by (unfold src; destruct sp; rewrite size_inl, ?moved_out_length by lia; reflexivity).
    assert (RD : read (m_data src) i = Done (nth i q None)).
    { unfold src. destruct sp; rewrite inl_data; [|now rewrite read_next by lia].
      change (map Obj q) with (map (@Obj A) (moved_out 0 q)). change (map (@Obj A) (moved_out 0 q) ++ ?R) with ([] ++ map (@Obj A) q ++ R).
      rewrite (read_nth _ _ _ _ None) by (simpl; lia). simpl. now rewrite Nat.sub_0_r. }
    rewrite vget_upd_same by (now rewrite upd_length). cbn [bind]. rewrite SZ. replace (i <? length q) with true by lia. cbn [assert bind].
    rewrite vget_upd_other by congruence. rewrite vget_upd_same by assumption. cbn [bind]. rewrite RD. cbn [bind].
    destruct (push_holds w (firstn i q) (nth i q None) Hw) as (b & -> & HB); [rewrite firstn_length; lia|]. cbn [bind].
    rewrite vset_done by (now rewrite !upd_length). cbn [bind]. rewrite vget_upd_other by congruence. rewrite vget_upd_same by (now rewrite upd_length). cbn [bind].
    assert (b = sp) as -> by (destruct b, sp; trivial; exfalso; intuition discriminate).
    unfold src in *. destruct sp.
    + cbn [bind]. rewrite vset_done by (now rewrite !upd_length). eexists. split; [reflexivity|].
      rewrite (upd_comm _ s d) by congruence. rewrite upd_upd, upd_upd. now rewrite (firstn_next q i None) by lia.
    + rewrite inl_data, take_next by lia. cbn [bind]. rewrite vset_done by (now rewrite !upd_length). eexists. split; [reflexivity|].
      rewrite moved_next by lia. rewrite (upd_comm _ s d) by congruence. rewrite upd_upd, upd_upd. now rewrite (firstn_next q i None) by lia.
  - rewrite E, firstn_all, moved_out_all. reflexivity.
Qed.

Lemma move_assign_from_spilled st d s v q : has = true -> d <> s -> nth_error st d = Some v -> nth_error st s = Some (spl q) ->
  fv_move_assign has cap st d s = Done (upd (upd st d (FV FallbackInUse (m_data v) q)) s (spl [])).
Proof.
  intros Hh Hds Ed Es. assert (Ld : d < length st) by (apply nth_error_Some; congruence). assert (Ls : s < length st) by (apply nth_error_Some; congruence).
  unfold fv_move_assign. rewrite Hh. rewrite (vget_some _ _ _ Es), (vget_some _ _ _ Ed). cbn [bind]. rewrite vset_done by assumption. cbn [bind].
  rewrite vget_upd_other by congruence. rewrite (vget_some _ _ _ Es). cbn [bind]. rewrite vset_done by (now rewrite upd_length). cbn [bind VectorProofs.spl m_size m_data].
  rewrite vget_upd_same by (now rewrite upd_length). cbn [bind]. rewrite vget_upd_other by congruence. rewrite vget_upd_same by assumption. cbn [bind].
  fold (spl []). rewrite <- Hh, fb_spl by assumption. rewrite vset_done by (now rewrite !upd_length). f_equal. cbn [m_data fallback m_size VectorProofs.spl].
  rewrite (upd_comm _ s d) by congruence. now rewrite upd_upd.
Qed.

Lemma move_assign_self_inline st d q : nth_error st d = Some (inl q) -> length q <= cap -> fv_move_assign has cap st d d = Done (upd st d (inl [])).
Proof.
  intros Ed HL. assert (Ld : d < length st) by (apply nth_error_Some; congruence).
  unfold fv_move_assign. rewrite (vget_some _ _ _ Ed). cbn [bind]. rewrite vset_done by assumption. cbn [bind]. rewrite vget_upd_same by assumption. cbn [bind].
  rewrite vset_done by (now rewrite upd_length). rewrite upd_upd. cbn [m_size m_data VectorProofs.inl]. fold (inl q).
  replace (upd st d (inl q)) with st by (now rewrite upd_id). replace (if has then Done st else Done st) with (Done st) by (now destruct has). cbn [bind].
  rewrite (vget_some _ _ _ Ed). cbn [bind]. rewrite fb_inl, clear_inl by assumption. cbn [bind]. rewrite vset_done by assumption. cbn [bind].
  rewrite vget_upd_same by assumption. cbn [bind]. rewrite size_inl, reserve_small by (simpl; lia). cbn [bind].
  rewrite vset_done by (now rewrite upd_length). rewrite upd_upd. cbn [bind]. rewrite vget_upd_same by assumption. cbn [bind]. rewrite size_inl. reflexivity.
Qed.

(** *** References to own elements *)
Lemma own_push_inl q k : k < length q -> length q < cap -> fv_push_back has cap (inl q) (OwnElement k) = Done (inl (q ++ [nth k q None]), false).
Proof.
  intros Hk HL. unfold fv_push_back. cbn [resolve is_move]. rewrite fb_inl, grow_inl by assumption. cbn [bind]. change (count (inl q)) with (length q). replace (length q <? cap) with true by lia.
  cbn [assert bind fetch]. pose proof (load_inl has cap q k None Hk) as E. unfold fv_load in E. rewrite fb_inl in E. rewrite E. cbn [bind m_data fallback VectorProofs.inl].
  rewrite (raws_S (cap - length q)) by lia. rewrite construct_mid by (now rewrite map_length). cbn [bind]. now rewrite inl_cells.
Qed.

Lemma read_raws n k : read (repeat (@Raw A) n) k = Fault FUB.
Proof.
  unfold read. destruct (nth_error (repeat Raw n) k) as [c|] eqn:E; [|reflexivity]. apply nth_error_In in E. apply repeat_spec in E. now rewrite E.
Qed.

Lemma own_push_full q k : has = true -> length q = cap ->
  fv_push_back has cap (inl q) (OwnElement k) = Fault FUB /\ fv_emplace_back has cap (inl q) (OwnElement k) = Fault FUB.
Proof.
  intros Hh HL. unfold fv_push_back, fv_emplace_back. cbn [resolve]. rewrite fb_inl, grow_full by assumption. cbn [bind]. unfold EmplaceInFallback. cbn [fallback VectorProofs.spl fetch m_data].
  rewrite Nat.leb_refl. cbn [require bind]. rewrite read_raws. auto.
Qed.

Lemma own_push_spl q k : has = true -> k < length q -> fv_push_back has cap (spl q) (OwnElement k) = Done (spl (q ++ [nth k q None]), false).
Proof.
  intros Hh Hk. unfold fv_push_back. cbn [resolve]. rewrite fb_spl, grow_spl by assumption. cbn [bind]. unfold EmplaceInFallback. cbn [fallback VectorProofs.spl fetch m_data m_size].
  rewrite Nat.leb_refl. cbn [require bind]. rewrite (vget_done _ _ None) by assumption. cbn [bind]. now rewrite append_cut.
Qed.

Lemma own_insert_full q i k : has = true -> length q = cap -> i <= length q -> fv_insert has cap (inl q) i (OwnElement k) = Fault FUB.
Proof.
  intros Hh HL Hi. unfold fv_insert, fv_emplace. rewrite size_inl. replace (i <=? length q) with true by lia. cbn [assert bind resolve]. rewrite fb_inl, grow_full by assumption. cbn [bind].
  unfold EmplaceInFallback. cbn [fallback VectorProofs.spl fetch m_data]. replace (i <=? length q) with true by lia. cbn [require bind]. now rewrite read_raws.
Qed.

Lemma own_insert_spl q i k : has = true -> i <= length q -> k < length q ->
  fv_insert has cap (spl q) i (OwnElement k) = Done (spl (firstn i q ++ nth k q None :: skipn i q), i, false).
Proof.
  intros Hh Hi Hk. unfold fv_insert, fv_emplace, fv_size. rewrite fb_spl by assumption. cbn [fallback VectorProofs.spl]. replace (i <=? length q) with true by lia.
  cbn [assert bind resolve]. fold (spl q). rewrite fb_spl, grow_spl by assumption. cbn [bind].
  unfold EmplaceInFallback. cbn [fallback VectorProofs.spl fetch m_data m_size]. replace (i <=? length q) with true by lia. cbn [require bind].
  now rewrite (vget_done _ _ None) by assumption.
Qed.

(** Inline: right before the insertion point, undefined at it, one off after it. *)
Lemma own_insert_inl q i k : i <= length q -> k < length q -> length q < cap ->
  fv_insert has cap (inl q) i (OwnElement k) =
    if (k <? i) || (i =? length q) then Done (inl (firstn i q ++ nth k q None :: skipn i q), i, false)
    else if k =? i then Fault FUB
    else Done (inl (firstn i q ++ nth (k - 1) q None :: skipn i q), i, false).
Proof.
  intros Hi Hk HL. unfold fv_insert, fv_emplace. rewrite size_inl. replace (i <=? length q) with true by lia. cbn [assert bind].
  cbn [resolve is_move]. rewrite fb_inl.
  rewrite grow_inl by assumption. cbn [bind]. change (count (inl q)) with (length q). replace (length q <? cap) with true by lia. cbn [assert bind].
  destruct (Nat.ltb_spec i (length q)) as [H|H].
  - assert (EQ : q = firstn i q ++ skipn i q) by (now rewrite firstn_skipn).
    assert (L1 : length (firstn i q) = i) by (rewrite firstn_length; lia).
    assert (L2 : length (skipn i q) = length q - i) by (apply skipn_length).
    pose proof (open_gap cap (firstn i q) (skipn i q)) as G. cbv zeta in G. rewrite <- EQ, L1 in G. cbv zeta.
    rewrite G; [|intros E; rewrite E in L2; simpl in L2; lia | rewrite L2; lia]. cbn [bind fetch m_data m_size fallback].
    assert (F : forall o, construct (map (@Obj A) (firstn i q) ++ Raw :: map Obj (skipn i q) ++ repeat Raw (cap - length q - 1)) i o
      = Done (m_data (inl (firstn i q ++ o :: skipn i q)))).
    { intros o. rewrite construct_mid by (rewrite map_length; lia). rewrite inl_data, map_app, <- app_assoc. cbn [map app]. do 5 f_equal. rewrite app_length. simpl. rewrite L1, L2. lia. }
    assert (F2 : forall o, FV (Count (length q + 1)) (m_data (inl (firstn i q ++ o :: skipn i q))) [] = inl (firstn i q ++ o :: skipn i q)).
    { intros o. unfold VectorProofs.inl. cbn [m_data]. f_equal. f_equal. rewrite app_length. simpl. rewrite L1, L2. lia. }
    replace (i =? length q) with false by lia. rewrite orb_false_r. destruct (Nat.ltb_spec k i) as [C|C].
    + assert (R : read (map (@Obj A) (firstn i q) ++ Raw :: map Obj (skipn i q) ++ repeat Raw (cap - length q - 1)) k = Done (nth k q None)).
      { change (map (@Obj A) (firstn i q) ++ ?R) with ([] ++ map (@Obj A) (firstn i q) ++ R).
        rewrite (read_nth _ _ _ _ None) by (simpl; lia). simpl. rewrite Nat.sub_0_r, nth_firstn. now replace (k <? i) with true by lia. }
      rewrite R. cbn [bind]. rewrite F. cbn [bind count m_size]. now rewrite F2.
    + destruct (Nat.eqb_spec k i) as [->|Hne].
      * rewrite read_raw by (now rewrite map_length). reflexivity.
      * assert (R : read (map (@Obj A) (firstn i q) ++ Raw :: map Obj (skipn i q) ++ repeat Raw (cap - length q - 1)) k = Done (nth (k - 1) q None)).
        { replace (map (@Obj A) (firstn i q) ++ Raw :: map Obj (skipn i q) ++ repeat Raw (cap - length q - 1))
            with ((map (@Obj A) (firstn i q) ++ [Raw]) ++ map Obj (skipn i q) ++ repeat Raw (cap - length q - 1)) by (now rewrite <- app_assoc).
          rewrite (read_nth _ _ _ _ None) by (rewrite app_length, map_length; simpl; lia). rewrite app_length, map_length, L1, nth_skipn. simpl. do 2 f_equal. lia. }
        rewrite R. cbn [bind]. rewrite F. cbn [bind count m_size]. now rewrite F2.
  - assert (i = length q) by lia. subst i. rewrite Nat.eqb_refl, orb_true_r. cbn [bind fetch].
    pose proof (load_inl has cap q k None Hk) as E. unfold fv_load in E. rewrite fb_inl in E. rewrite E. cbn [bind m_data fallback VectorProofs.inl].
    rewrite (raws_S (cap - length q)) by lia. rewrite construct_mid by (now rewrite map_length). cbn [bind]. unfold count. cbn [m_size fallback VectorProofs.inl]. rewrite inl_cells by assumption. now rewrite append_cut.
Qed.
End Vector.
