(** FixedVector and HybridVector with and without assertions. *)
From Verif Require Import CellModel VectorSpec VectorModel VectorReleaseModel Release.

Section R.
Context {A : Type}.
Variables (has : bool) (cap : nat) (dflt : A).

Hint Resolve follows_refl : release.
Lemma fol_at (v : fvec A) i : follows (fv_at has v i) (rv_at has v i).
Proof. unfold fv_at, rv_at. follow. Qed.
Lemma fol_set (v : fvec A) i a : follows (fv_set has v i a) (rv_set has v i a).
Proof. unfold fv_set, rv_set. follow. Qed.
Lemma fol_front (v : fvec A) : follows (fv_front has v) (rv_front has v).
Proof. unfold fv_front, rv_front. follow. Qed.
Lemma fol_back (v : fvec A) : follows (fv_back has v) (rv_back has v).
Proof. unfold fv_back, rv_back. follow. Qed.
Lemma fol_spill (v : fvec A) : follows (MoveStorageToFallback has v) (rMoveStorageToFallback v).
Proof. unfold MoveStorageToFallback, rMoveStorageToFallback. follow. Qed.
Hint Resolve fol_at fol_set fol_spill : release.
Lemma fol_grow (v : fvec A) : follows (CheckFallbackOnGrow has cap v) (rCheckFallbackOnGrow has cap v).
Proof. unfold CheckFallbackOnGrow, rCheckFallbackOnGrow. follow. Qed.
Hint Resolve fol_grow : release.
Lemma fol_emplace (v : fvec A) i x : follows (fv_emplace has cap v i x) (rv_emplace has cap v i x).
Proof. unfold fv_emplace, rv_emplace. cbv zeta. follow. Qed.
Lemma fol_emplace_back (v : fvec A) x : follows (fv_emplace_back has cap v x) (rv_emplace_back has cap v x).
Proof. unfold fv_emplace_back, rv_emplace_back. cbv zeta. follow. Qed.
Lemma fol_push_back (v : fvec A) x : follows (fv_push_back has cap v x) (rv_push_back has cap v x).
Proof. unfold fv_push_back, rv_push_back. cbv zeta. follow. Qed.
Lemma fol_pop_back (v : fvec A) : follows (fv_pop_back has v) (rv_pop_back has v).
Proof.
  unfold fv_pop_back, rv_pop_back. destruct (IsUsingFallback has v) eqn:F; [follow|]. apply follows_assert. unfold fv_empty. rewrite F. intros E. replace (0 <? count v) with true by lia. follow.
Qed.
Lemma fol_resize_with (v : fvec A) n x : follows (fv_resize_with has cap v n x) (rv_resize_with has cap v n x).
Proof. unfold fv_resize_with, rv_resize_with. cbv zeta. follow. Qed.
Lemma fol_reserve (v : fvec A) n : follows (fv_reserve has cap v n) (rv_reserve has cap v n).
Proof. unfold fv_reserve, rv_reserve. follow. Qed.
Hint Resolve fol_emplace fol_emplace_back fol_push_back fol_pop_back fol_resize_with fol_reserve : release.
Lemma fol_erase (v : fvec A) i : follows (fv_erase has v i) (rv_erase has v i).
Proof.
  unfold fv_erase, rv_erase. cbv zeta. apply follows_assert. unfold fv_size. destruct (IsUsingFallback has v); intros L.
  - rewrite L. follow.
  - replace (i + 1 <=? count v) with true by lia. cbn [require bind]. follow.
Qed.
Lemma fol_erase_range (v : fvec A) i j : follows (fv_erase_range has cap dflt v i j) (rv_erase_range has cap dflt v i j).
Proof.
  unfold fv_erase_range, rv_erase_range, fv_resize, rv_resize. cbv zeta. unfold fv_size. destruct (IsUsingFallback has v) eqn:F; [follow|]. destruct (i =? j); [follow|].
  apply follows_assert. intros L. apply follows_assert. intros M. rewrite L, M. cbn [andb require bind]. follow.
Qed.
Lemma fol_push_value (v : fvec A) o : follows (push_value has cap v o) (r_push_value has cap v o).
Proof. unfold push_value, r_push_value. follow. Qed.
Hint Resolve fol_erase fol_erase_range fol_push_value : release.
Lemma fol_copy (v : fvec A) : follows (fv_copy has cap v) (rv_copy has cap v).
Proof. unfold fv_copy, rv_copy. cbv zeta. follow. Qed.
Lemma fol_move (v : fvec A) : follows (fv_move has cap v) (rv_move has cap v).
Proof. unfold fv_move, rv_move. cbv zeta. apply follows_if; intros _; [|apply follows_refl]. apply follows_foreach. intros (v', src) i _. follow. Qed.
Lemma fol_assign (st : list (fvec A)) d s : follows (fv_assign has cap st d s) (rv_assign has cap st d s).
Proof. unfold fv_assign, rv_assign. follow. Qed.
Lemma fol_move_assign (st : list (fvec A)) d s : follows (fv_move_assign has cap st d s) (rv_move_assign has cap st d s).
Proof. unfold fv_move_assign, rv_move_assign. follow. Qed.
Lemma fol_apply (v : fvec A) o : follows (fv_apply has cap dflt v o) (rv_apply has cap dflt v o).
Proof. destruct o; cbn [fv_apply rv_apply]; unfold fv_insert, rv_insert, fv_resize, rv_resize; follow. Qed.
Lemma fol_vrun ops : forall v : fvec A, follows (fv_run has cap dflt v ops) (rv_run has cap dflt v ops).
Proof.
  induction ops as [|o ops IH]; intros v; cbn [fv_run rv_run]; [apply follows_refl|]. apply follows_bind; [apply fol_apply|]. intros (v', r) _. apply follows_bind; [apply IH|]. intros (v'', rs) _. apply follows_refl.
Qed.
End R.
