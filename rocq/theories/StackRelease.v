(** StackVector and StackArray with and without assertions. *)
From Verif Require Import CellModel CellProofs VectorModel VectorProofs VectorHistory VectorCopy StackModel StackProofs VectorReleaseModel StackReleaseModel Release.

Section R.
Context {A : Type}.
Variable dflt : A.
Notation heap := (list (list (cell A))).
Implicit Types (h : heap) (v : svec) (m : list (cell A)).

Lemma pos_size n : negb (n =? 0) = true -> (0 <? n) = true.
Proof. lia. Qed.
Lemma fol_sat h v i : follows (sv_at h v i) (rsv_at h v i).
Proof. unfold sv_at, rsv_at. follow. Qed.
Lemma fol_sset h v i a : follows (sv_set h v i a) (rsv_set h v i a).
Proof. unfold sv_set, rsv_set. follow. Qed.
Lemma fol_sfront h v : follows (sv_front h v) (rsv_front h v).
Proof. unfold sv_front, rsv_front. follow. Qed.
Lemma fol_sback h v : follows (sv_back h v) (rsv_back h v).
Proof. unfold sv_back, rsv_back. apply follows_assert. intros H. rewrite (pos_size _ H). cbn [require bind]. follow. Qed.
Lemma fol_semplace h v i k : follows (sv_emplace_from h v i k) (rsv_emplace_from h v i k).
Proof. unfold sv_emplace_from, rsv_emplace_from. cbv zeta. follow. Qed.
Lemma fol_spush h v k : follows (sv_push_from h v k) (rsv_push_from h v k).
Proof. unfold sv_push_from, rsv_push_from. follow. Qed.
Lemma fol_spop h v : follows (sv_pop h v) (rsv_pop h v).
Proof. unfold sv_pop, rsv_pop. apply follows_assert. intros H. rewrite (pos_size _ H). cbn [require bind]. follow. Qed.
Lemma fol_sresize h v n a : follows (sv_resize h v n a) (rsv_resize h v n a).
Proof. unfold sv_resize, rsv_resize. follow. Qed.
Hint Resolve fol_sat fol_sset fol_semplace fol_spush fol_spop fol_sresize : release.
Lemma fol_sdestroy h v : follows (sv_destroy dflt h v) (rsv_destroy dflt h v).
Proof. unfold sv_destroy, rsv_destroy, sv_clear, rsv_clear. follow. Qed.
Lemma fol_serase h v i : follows (sv_erase h v i) (rsv_erase h v i).
Proof.
  unfold sv_erase, rsv_erase. cbv zeta. apply follows_assert. intros H. replace (i + 1 <=? v_size v) with true by lia. cbn [require bind]. follow.
Qed.
Lemma fol_serase_range h v i j : follows (sv_erase_range dflt h v i j) (rsv_erase_range dflt h v i j).
Proof.
  unfold sv_erase_range, rsv_erase_range. cbv zeta. destruct (i =? j); [follow|]. apply follows_assert. intros L. apply follows_assert. intros M. rewrite L, M. cbn [andb require bind]. follow.
Qed.
Hint Resolve fol_serase fol_serase_range : release.
Lemma fol_sapply s o : follows (sv_apply dflt s o) (rsv_apply dflt s o).
Proof.
  destruct s as (h, v). destruct o; cbn [sv_apply rsv_apply]; unfold sv_push, rsv_push, sv_emplace, rsv_emplace, sv_clear, rsv_clear; follow.
Qed.
Lemma fol_srun ops : forall s, follows (sv_run dflt s ops) (rsv_run dflt s ops).
Proof.
  induction ops as [|o ops IH]; intros s; cbn [sv_run rsv_run]; [apply follows_refl|]. apply follows_bind; [apply fol_sapply|]. intros (s', r) _. apply follows_bind; [apply IH|]. intros (s'', rs) _. apply follows_refl.
Qed.
Lemma fol_aat h a i : follows (sa_at h a i) (rsa_at h a i).
Proof. unfold sa_at, rsa_at. follow. Qed.
Lemma fol_aset h a i x : follows (sa_set h a i x) (rsa_set h a i x).
Proof. unfold sa_set, rsa_set. follow. Qed.
Lemma fol_aback h a : follows (sa_back h a) (rsa_back h a).
Proof. unfold sa_back, rsa_back. apply follows_assert. intros H. rewrite (pos_size _ H). cbn [require bind]. follow. Qed.

(** Without assertions too, a StackVector is a FixedVector without fallback. *)
Lemma rpop_sim h c n b m : nth_error h b = Some m ->
  rsv_pop h (SV c n (Some b)) = (f <- rv_pop_back false (as_fv n m) ;; Done (upd h b (m_data f), SV c (count f) (Some b))).
Proof.
  intros E. unfold rsv_pop, rv_pop_back, IsUsingFallback, count, as_fv. cbn [v_size v_ptr v_capacity andb m_size m_data fallback].
  destruct (0 <? n); cbn [require bind]; [|reflexivity]. rewrite destroy_block, (on_block_some h b m) by assumption.
  destruct (destroy m (n - 1)); reflexivity.
Qed.
Lemma rresize_sim h c n b m k a : nth_error h b = Some m ->
  rsv_resize h (SV c n (Some b)) k a = (f <- rv_resize_with false c (as_fv n m) k (ByCopy a) ;; Done (upd h b (m_data f), SV c (count f) (Some b))).
Proof.
  intros E. unfold rsv_resize, rv_resize_with, IsUsingFallback, count, as_fv. cbn [v_size v_ptr v_capacity andb m_size m_data fallback resolve fetch].
  destruct (n <? k).
  - rewrite (foreach_block (fun m i => construct m i (Some a)) b _ h m) by assumption.
    destruct (foreach _ _ m); reflexivity.
  - destruct (k <? n).
    + rewrite (foreach_ext _ (fun h i => on_block h (Some b) (fun m => destroy m i))) by (intros; apply destroy_block).
      rewrite (foreach_block (fun m i => destroy m i) b _ h m) by assumption. unfold destroy_range. change (fun m i => destroy m i) with (@destroy A).
      destruct (foreach _ _ m); reflexivity.
    + cbn [bind m_data m_size]. now rewrite upd_id.
Qed.
Lemma rapply_sim h c n b m o : nth_error h b = Some m -> (forall k, o <> Reserve k) ->
  rsv_apply dflt (h, SV c n (Some b)) o = sim h c b (rv_apply false c dflt (as_fv n m) o).
Proof.
  intros E HR. assert (HB : b < length h) by (apply nth_error_Some; congruence).
  assert (PUSH : forall a x, x = ByCopy a \/ x = ByMove a ->
    (s <- rsv_push h (SV c n (Some b)) a ;; Done (s, None)) = sim h c b (' (v, _) <- rv_push_back false c (as_fv n m) x ;; Done (v, None)) /\
    (s <- rsv_push h (SV c n (Some b)) a ;; Done (s, None)) = sim h c b (' (v, _) <- rv_emplace_back false c (as_fv n m) x ;; Done (v, None))).
  { intros a x Hx. unfold rsv_push, rsv_push_from, rv_push_back, rv_emplace_back, rCheckFallbackOnGrow, count, as_fv, sim. cbn [bind v_size v_ptr v_capacity m_size m_data fallback].
    rewrite (on_block_some h b m) by assumption.
    destruct Hx as [->| ->]; cbn [resolve fetch bind]; destruct (construct m n (Some a)); auto. }
  assert (INS : forall i a x, x = ByCopy a \/ x = ByMove a ->
    (' (s, r) <- rsv_emplace h (SV c n (Some b)) i a ;; Done (s, Some r)) = sim h c b (' (v, r, _) <- rv_insert false c (as_fv n m) i x ;; Done (v, Some r))).
  { intros i a x Hx. unfold rsv_emplace, rsv_emplace_from, rv_insert, rv_emplace, rCheckFallbackOnGrow, IsUsingFallback, as_fv, sim.
    destruct Hx as [->| ->]; cbn [bind v_size v_ptr v_capacity m_size m_data fallback andb count].
    all: destruct (i <? n); cbn [bind resolve fetch]; [| rewrite (on_block_some h b m) by assumption; cbn [m_data m_size fallback bind]; destruct (construct m i (Some a)); reflexivity].
    all: rewrite (on_block_some h b m) by assumption; destruct (take m (n - 1)) as [[o1 m1]|]; cbn [bind]; [|reflexivity];
        (destruct (construct m1 n o1) as [m2|]; cbn [bind]; [|reflexivity]);
        (destruct (if i <? n - 1 then _ else _) as [m3|]; cbn [bind]; [|reflexivity]);
        (destruct (destroy m3 i) as [m4|]; cbn [bind m_data m_size fallback resolve fetch]; [|reflexivity]);
        rewrite (on_block_some _ b m4) by (now apply nth_upd_block); (destruct (construct m4 i (Some a)); cbn [bind]; [|reflexivity]); now rewrite upd_upd. }
  destruct o; cbn [rsv_apply rv_apply].
  - exact (proj1 (PUSH a _ (or_introl eq_refl))).
  - exact (proj1 (PUSH a _ (or_intror eq_refl))).
  - exact (proj2 (PUSH a _ (or_introl eq_refl))).
  - exact (INS i a _ (or_introl eq_refl)).
  - exact (INS i a _ (or_intror eq_refl)).
  - unfold rsv_erase, rv_erase, IsUsingFallback, sim. cbn [v_size v_ptr andb as_fv count m_size m_data fallback].
    destruct (i + 1 <=? n); cbn [require bind]; [|reflexivity]. rewrite (on_block_some h b m) by assumption.
    destruct (move_forward m (i + 1) (n - (i + 1)) i) as [m'|]; cbn [bind]; [|reflexivity].
    rewrite (rpop_sim _ c n b m') by (now apply nth_upd_block). unfold as_fv.
    destruct (rv_pop_back false (FV (Count n) m' [])); cbn [bind]; [|reflexivity]. now rewrite upd_upd.
  - unfold rsv_erase_range, rv_erase_range, fv_size, IsUsingFallback, sim. cbn [v_size v_ptr andb as_fv count m_size m_data fallback].
    destruct (i =? j); cbn [bind m_data count m_size]; [now rewrite upd_id|].
    destruct ((i <? j) && (j <=? n)); cbn [require bind]; [|reflexivity]. rewrite (on_block_some h b m) by assumption.
    destruct (move_forward _ _ _ _) as [m'|]; cbn [bind]; [|reflexivity].
    rewrite (rresize_sim _ c n b m') by (now apply nth_upd_block). unfold as_fv, rv_resize.
    destruct (rv_resize_with _ _ _ _ _); cbn [bind]; [|reflexivity]. now rewrite upd_upd.
  - rewrite (rpop_sim h c n b m) by assumption. unfold sim. destruct (rv_pop_back _ _); reflexivity.
  - rewrite (rresize_sim h c n b m) by assumption. unfold sim, rv_resize. destruct (rv_resize_with _ _ _ _ _); reflexivity.
  - rewrite (rresize_sim h c n b m) by assumption. unfold sim. destruct (rv_resize_with _ _ _ _ _); reflexivity.
  - exfalso. exact (HR n0 eq_refl).
  - unfold rsv_clear. rewrite (rresize_sim h c n b m) by assumption. unfold sim, fv_clear, rv_resize_with, IsUsingFallback, as_fv. cbn [andb count m_size m_data fallback].
    replace (n <? 0) with false by reflexivity. destruct (Nat.ltb_spec 0 n).
    + destruct (destroy_range m 0 n); reflexivity.
    + assert (n = 0) by lia. subst n. unfold destroy_range. reflexivity.
  - unfold rsv_set, rv_set, fv_store, IsUsingFallback, sim. cbn [v_size v_ptr andb as_fv count m_size m_data fallback].
    rewrite (on_block_some h b m) by assumption. destruct (assign m i (Some a)); reflexivity.
Qed.
End R.
