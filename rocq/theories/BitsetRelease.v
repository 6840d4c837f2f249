(** Bitset with and without assertions. *)
From Verif Require Import Base CInt MathModel BitsetModel BitsetHistory BitsetReleaseModel Release.
Open Scope nat_scope.

Section R.
Variable w : nat.

Lemma fol_Set b i v : follows (Set_ w b i v) (rSet w b i v).
Proof. unfold Set_, rSet. follow. Qed.
Lemma fol_Test b i : follows (Test w b i) (rTest w b i).
Proof. unfold Test, rTest. follow. Qed.
Lemma fol_GetBlock b i : follows (GetBlock b i) (rGetBlock b i).
Proof. unfold GetBlock, rGetBlock. follow. Qed.
Lemma fol_SetBlock b i x : follows (SetBlock w b i x) (rSetBlock w b i x).
Proof. unfold SetBlock, rSetBlock. follow. Qed.
Hint Resolve fol_Set fol_Test fol_GetBlock fol_SetBlock follows_refl : release.
Lemma fol_FindNext b i : follows (FindNext w b i) (rFindNext w b (Some i)).
Proof. unfold FindNext, rFindNext. follow. Qed.
Hint Resolve fol_FindNext : release.
Lemma fol_iter_incr b it : follows (iter_incr w b it) (r_iter_incr w b it).
Proof. unfold iter_incr, r_iter_incr. destruct it; [apply fol_FindNext | now left]. Qed.
Hint Resolve fol_iter_incr : release.
Lemma fol_iter_loop b fuel : forall it, follows (iter_loop w fuel b it) (r_iter_loop w fuel b it).
Proof. induction fuel as [|f IH]; intros [p|]; cbn [iter_loop r_iter_loop]; follow. Qed.
Lemma fol_IterBits b : follows (IterBits w b) (rIterBits w b).
Proof. apply fol_iter_loop. Qed.
Lemma fol_Intersects a b : follows (Intersects a b) (rIntersects a b).
Proof. unfold Intersects, rIntersects. generalize (range 0 (Nat.min (GetBlockCount a) (GetBlockCount b))). intros l. induction l as [|i l IH]; cbn [intersects_loop r_intersects_loop]; follow. Qed.
Lemma fol_reverse_loop fuel : forall b i j, follows (reverse_loop w fuel b i j) (r_reverse_loop w fuel b i j).
Proof. induction fuel as [|f IH]; intros b i j; cbn [reverse_loop r_reverse_loop]; follow. Qed.
Lemma fol_Reverse b : follows (Reverse w b) (rReverse w b).
Proof. unfold Reverse, rReverse. pose proof (fol_reverse_loop (bitCount b) b 0 (bitCount b - 1)). follow. Qed.
Lemma fol_UnboundedSet b i v : follows (UnboundedSet w b i v) (rUnboundedSet w b i v).
Proof. unfold UnboundedSet, rUnboundedSet. follow. Qed.
Lemma fol_UnboundedTest b i : follows (UnboundedTest w b i) (rUnboundedTest w b i).
Proof. unfold UnboundedTest, rUnboundedTest. follow. Qed.
Hint Resolve fol_UnboundedSet : release.
Lemma fol_of_string s : follows (of_string w s) (r_of_string w s).
Proof. unfold of_string, r_of_string. follow. Qed.
Lemma fol_ToString b : follows (ToString w b) (rToString w b).
Proof. unfold ToString, rToString. follow. Qed.
Lemma fol_of_int tw v : follows (of_int w tw v) (r_of_int w tw v).
Proof. unfold of_int, r_of_int. follow. Qed.
Lemma fol_To tw b : follows (To w tw b) (rTo w tw b).
Proof. unfold To, rTo. follow. Qed.
Lemma fol_Write mem b q n : follows (Write w mem b q n) (rWrite w mem b q n).
Proof.
  unfold Write, rWrite. destruct q as (ptr, second). apply follows_assert. intros L. apply Nat.ltb_lt in L.
  replace (second <? 32) with true by (symmetry; apply Nat.ltb_lt; lia). replace (second <=? 8) with true by (symmetry; apply Nat.leb_le; lia). cbn [require bind]. apply follows_refl.
Qed.
Lemma fol_equals a b : follows (equals a b) (r_equals a b).
Proof.
  assert (E : forall l, follows (eq_common a b l) (r_eq_common a b l)) by (induction l as [|i l IH]; cbn [eq_common r_eq_common]; follow).
  assert (Z : forall g l, follows (all_zero g l) (r_all_zero g l)) by (induction l as [|i l IH]; cbn [all_zero r_all_zero]; follow).
  unfold equals, r_equals. destruct (GetBlockCount b <? GetBlockCount a); cbv beta iota; follow.
Qed.
Lemma fol_less a b : follows (less a b) (r_less a b).
Proof.
  assert (E : forall l, follows (less_common a b l) (r_less_common a b l)) by (induction l as [|i l IH]; cbn [less_common r_less_common]; follow).
  unfold less, r_less. destruct (GetBlockCount b <? GetBlockCount a); cbv beta iota; follow.
Qed.
Lemma fol_PerformsAND st d a b : follows (PerformsAND w st d a b) (rPerformsAND w st d a b).
Proof. unfold PerformsAND, rPerformsAND. cbv zeta. follow. Qed.
Lemma fol_PerformsNOT st d a : follows (PerformsNOT w st d a) (rPerformsNOT w st d a).
Proof. unfold PerformsNOT, rPerformsNOT. cbv zeta. follow. Qed.
Lemma fol_PerformsOp f st d a b : follows (PerformsOp w f st d a b) (rPerformsOp w f st d a b).
Proof. unfold PerformsOp, rPerformsOp. cbv zeta. follow. Qed.
Hint Resolve fol_of_string fol_of_int fol_Reverse fol_Write fol_PerformsAND fol_PerformsNOT fol_PerformsOp : release.

Lemma fol_step st o : follows (step w st o) (r_step w st o).
Proof.
  destruct o; cbn [step r_step]; unfold at1, PerformsOR, rPerformsOR, PerformsXOR, rPerformsXOR, ResetBit, rResetBit, UnboundedReset, rUnboundedReset; follow.
Qed.
Lemma fol_run l : forall st, follows (run w st l) (r_run w st l).
Proof. induction l as [|o l IH]; intros st; cbn [run r_run]; [apply follows_refl|]. apply follows_bind; [apply fol_step | intros st' _; apply IH]. Qed.
End R.
