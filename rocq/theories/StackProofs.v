(** StackVector and StackArray. *)
From Verif Require Import CellModel CellProofs VectorModel VectorProofs VectorHistory VectorCopy StackModel.

Section Stack.
Context {A : Type}.
Variable dflt : A.
Notation heap := (list (list (cell A))).
Implicit Types (h : heap) (m : list (cell A)).

Lemma on_block_some h b m f : nth_error h b = Some m -> on_block h (Some b) f = (m' <- f m ;; Done (upd h b m')).
Proof.
  intros E. unfold on_block. rewrite (vget_some _ _ _ E). cbn [bind]. destruct (f m) as [m'|]; cbn [bind]; [|reflexivity].
  apply vset_done. apply nth_error_Some. congruence.
Qed.

Lemma nth_upd_block h b m : b < length h -> nth_error (upd h b m) b = Some m.
Proof. intros H. rewrite nth_error_upd, Nat.eqb_refl. now replace (b <? length h) with true by lia. Qed.

Lemma foreach_block (f : list (cell A) -> nat -> outcome (list (cell A))) b l : forall h m, nth_error h b = Some m ->
  foreach l (fun h i => on_block h (Some b) (fun m => f m i)) h = (m' <- foreach l f m ;; Done (upd h b m')).
Proof.
  induction l as [|i l IH]; intros h m E; cbn [foreach bind].
  - now rewrite upd_id.
  - rewrite (on_block_some h b m) by assumption. destruct (f m i) as [m'|] eqn:F; cbn [bind]; [|reflexivity].
    assert (b < length h) by (apply nth_error_Some; congruence).
    rewrite (IH _ m') by (now apply nth_upd_block). destruct (foreach l f m'); cbn [bind]; [|reflexivity]. now rewrite upd_upd.
Qed.

Lemma destroy_block h b i : destroy_at h (Some b) i = on_block h (Some b) (fun m => destroy m i).
Proof. reflexivity. Qed.

(** The state of a StackVector over block [b] is that of a FixedVector without fallback over the same cells. *)
Definition as_fv (n : nat) m : fvec A := FV (Count n) m [].
Definition sim (h : heap) (c b : nat) (r : outcome (fvec A * option nat)) : outcome (heap * svec * option nat) :=
  ' (f, o) <- r ;; Done (upd h b (m_data f), SV c (count f) (Some b), o).

Lemma pop_sim h c n b m : nth_error h b = Some m ->
  sv_pop h (SV c n (Some b)) = (f <- fv_pop_back false (as_fv n m) ;; Done (upd h b (m_data f), SV c (count f) (Some b))).
Proof.
  intros E. unfold sv_pop, fv_pop_back, fv_empty, IsUsingFallback, count, as_fv. cbn [v_size v_ptr v_capacity andb m_size m_data fallback].
  destruct (n =? 0); cbn [negb assert bind]; [reflexivity|]. rewrite destroy_block, (on_block_some h b m) by assumption.
  destruct (destroy m (n - 1)); reflexivity.
Qed.

Lemma resize_sim h c n b m k a : nth_error h b = Some m ->
  sv_resize h (SV c n (Some b)) k a = (f <- fv_resize_with false c (as_fv n m) k (ByCopy a) ;; Done (upd h b (m_data f), SV c (count f) (Some b))).
Proof.
  intros E. unfold sv_resize, fv_resize_with, IsUsingFallback, count, as_fv. cbn [v_size v_ptr v_capacity andb m_size m_data fallback resolve fetch].
  destruct (k <=? c); cbn [assert bind]; [|reflexivity]. destruct (n <? k).
  - rewrite (foreach_block (fun m i => construct m i (Some a)) b _ h m) by assumption.
    destruct (foreach _ _ m); reflexivity.
  - destruct (k <? n).
    + rewrite (foreach_ext _ (fun h i => on_block h (Some b) (fun m => destroy m i))) by (intros; apply destroy_block).
      rewrite (foreach_block (fun m i => destroy m i) b _ h m) by assumption. unfold destroy_range. change (fun m i => destroy m i) with (@destroy A).
      destruct (foreach _ _ m); reflexivity.
    + cbn [bind m_data m_size]. now rewrite upd_id.
Qed.

Lemma apply_sim h c n b m o : nth_error h b = Some m -> n <= c -> (forall k, o <> Reserve k) ->
  sv_apply dflt (h, SV c n (Some b)) o = sim h c b (fv_apply false c dflt (as_fv n m) o).
Proof.
  intros E HN HR. assert (HB : b < length h) by (apply nth_error_Some; congruence).
  assert (PUSH : forall a x, x = ByCopy a \/ x = ByMove a ->
    (s <- sv_push h (SV c n (Some b)) a ;; Done (s, None)) = sim h c b (' (v, _) <- fv_push_back false c (as_fv n m) x ;; Done (v, None)) /\
    (s <- sv_push h (SV c n (Some b)) a ;; Done (s, None)) = sim h c b (' (v, _) <- fv_emplace_back false c (as_fv n m) x ;; Done (v, None))).
  { intros a x Hx. unfold sv_push, sv_push_from, fv_push_back, fv_emplace_back, CheckFallbackOnGrow, count, as_fv, sim. cbn [bind v_size v_ptr v_capacity m_size m_data fallback].
    destruct (n <? c); cbn [assert bind]; [|auto]. rewrite (on_block_some h b m) by assumption.
    destruct Hx as [->| ->]; cbn [resolve fetch bind]; destruct (construct m n (Some a)); auto. }
  assert (INS : forall i a x, x = ByCopy a \/ x = ByMove a ->
    (' (s, r) <- sv_emplace h (SV c n (Some b)) i a ;; Done (s, Some r)) = sim h c b (' (v, r, _) <- fv_insert false c (as_fv n m) i x ;; Done (v, Some r))).
  { intros i a x Hx. unfold sv_emplace, sv_emplace_from, fv_insert, fv_emplace, CheckFallbackOnGrow, fv_size, IsUsingFallback, as_fv, sim.
    destruct Hx as [->| ->]; cbn [bind v_size v_ptr v_capacity m_size m_data fallback andb count]; destruct (Nat.ltb_spec n c); cbn [assert bind];
      destruct (i <=? n); cbn [assert bind]; try reflexivity.
    all: destruct (i <? n); cbn [bind resolve fetch]; [| rewrite (on_block_some h b m) by assumption; cbn [m_data m_size fallback bind]; destruct (construct m i (Some a)); reflexivity].
    all: rewrite (on_block_some h b m) by assumption; destruct (take m (n - 1)) as [[o1 m1]|]; cbn [bind]; [|reflexivity];
        (destruct (construct m1 n o1) as [m2|]; cbn [bind]; [|reflexivity]);
        (destruct (if i <? n - 1 then _ else _) as [m3|]; cbn [bind]; [|reflexivity]);
        (destruct (destroy m3 i) as [m4|]; cbn [bind m_data m_size fallback resolve fetch]; [|reflexivity]);
        rewrite (on_block_some _ b m4) by (now apply nth_upd_block); (destruct (construct m4 i (Some a)); cbn [bind]; [|reflexivity]); now rewrite upd_upd. }
  destruct o; cbn [sv_apply fv_apply].
  - exact (proj1 (PUSH a _ (or_introl eq_refl))).
  - exact (proj1 (PUSH a _ (or_intror eq_refl))).
  - exact (proj2 (PUSH a _ (or_introl eq_refl))).
  - exact (INS i a _ (or_introl eq_refl)).
  - exact (INS i a _ (or_intror eq_refl)).
  - unfold sv_erase, fv_erase, fv_size, IsUsingFallback, sim. cbn [v_size v_ptr andb as_fv count m_size m_data fallback].
    destruct (i <? n); cbn [assert bind]; [|reflexivity]. rewrite (on_block_some h b m) by assumption.
    destruct (move_forward m (i + 1) (n - (i + 1)) i) as [m'|]; cbn [bind]; [|reflexivity].
    rewrite (pop_sim _ c n b m') by (now apply nth_upd_block). unfold as_fv.
    destruct (fv_pop_back false (FV (Count n) m' [])); cbn [bind]; [|reflexivity]. now rewrite upd_upd.
  - unfold sv_erase_range, fv_erase_range, fv_size, IsUsingFallback, sim. cbn [v_size v_ptr andb as_fv count m_size m_data fallback].
    destruct (i =? j); cbn [bind m_data count m_size]; [now rewrite upd_id|].
    destruct (i <? j); cbn [assert bind]; [|reflexivity]. destruct (j <=? n); cbn [assert bind]; [|reflexivity]. rewrite (on_block_some h b m) by assumption.
    destruct (move_forward _ _ _ _) as [m'|]; cbn [bind]; [|reflexivity].
    rewrite (resize_sim _ c n b m') by (now apply nth_upd_block). unfold as_fv, fv_resize.
    destruct (fv_resize_with _ _ _ _ _); cbn [bind]; [|reflexivity]. now rewrite upd_upd.
  - rewrite (pop_sim h c n b m) by assumption. unfold sim. destruct (fv_pop_back _ _); reflexivity.
  - rewrite (resize_sim h c n b m) by assumption. unfold sim, fv_resize. destruct (fv_resize_with _ _ _ _ _); reflexivity.
  - rewrite (resize_sim h c n b m) by assumption. unfold sim. destruct (fv_resize_with _ _ _ _ _); reflexivity.
  - exfalso. exact (HR n0 eq_refl).
  - unfold sv_clear. rewrite (resize_sim h c n b m) by assumption. unfold sim, fv_clear, fv_resize_with, IsUsingFallback, as_fv. cbn [andb count m_size m_data fallback].
    replace (0 <=? c) with true by reflexivity. cbn [assert bind]. replace (n <? 0) with false by reflexivity. destruct (Nat.ltb_spec 0 n).
    + destruct (destroy_range m 0 n); reflexivity.
    + assert (n = 0) by lia. subst n. unfold destroy_range. reflexivity.
  - unfold sv_set, fv_set, fv_store, fv_size, IsUsingFallback, sim. cbn [v_size v_ptr andb as_fv count m_size m_data fallback].
    destruct (i <? n); cbn [assert bind]; [|reflexivity]. rewrite (on_block_some h b m) by assumption. destruct (assign m i (Some a)); reflexivity.
Qed.

(** Arguments that are elements of the vector. *)
Lemma push_own_sim h c n b m k : nth_error h b = Some m ->
  sv_push_own h (SV c n (Some b)) k = (' (f, _) <- fv_push_back false c (as_fv n m) (OwnElement k) ;; Done (upd h b (m_data f), SV c (count f) (Some b))).
Proof.
  intros E. unfold sv_push_own, sv_push_from, fv_push_back, CheckFallbackOnGrow, resolve, IsUsingFallback, as_fv. cbn [bind v_size v_ptr v_capacity m_size m_data fallback andb count].
  destruct (n <? c); cbn [assert bind]; [|reflexivity]. rewrite (on_block_some h b m) by assumption. cbn [fetch m_data].
  destruct (read m k) as [o|]; cbn [bind]; [|reflexivity]. destruct (construct m n o); reflexivity.
Qed.
Lemma emplace_own_sim h c n b m i k : nth_error h b = Some m -> n < c ->
  sv_emplace_own h (SV c n (Some b)) i k = (' (f, r, _) <- fv_insert false c (as_fv n m) i (OwnElement k) ;; Done (upd h b (m_data f), SV c (count f) (Some b), r)).
Proof.
  intros E HN. assert (HB : b < length h) by (apply nth_error_Some; congruence).
  unfold sv_emplace_own, sv_emplace_from, fv_insert, fv_emplace, CheckFallbackOnGrow, resolve, fv_size, IsUsingFallback, as_fv.
  cbn [bind v_size v_ptr v_capacity m_size m_data fallback andb count]. replace (n <? c) with true by lia. cbn [assert bind].
  destruct (i <=? n); cbn [assert bind]; try reflexivity.
  destruct (i <? n); cbn [bind fetch].
  - rewrite (on_block_some h b m) by assumption; destruct (take m (n - 1)) as [[o1 m1]|]; cbn [bind]; [|reflexivity].
    destruct (construct m1 n o1) as [m2|]; cbn [bind]; [|reflexivity].
    destruct (if i <? n - 1 then _ else _) as [m3|]; cbn [bind]; [|reflexivity].
    destruct (destroy m3 i) as [m4|]; cbn [bind m_data m_size fallback fetch]; [|reflexivity].
    rewrite (on_block_some _ b m4) by (now apply nth_upd_block). destruct (read m4 k) as [o|]; cbn [bind]; [|reflexivity].
    destruct (construct m4 i o); cbn [bind]; [|reflexivity]. now rewrite upd_upd.
  - rewrite (on_block_some h b m) by assumption. cbn [m_data m_size fallback bind fetch]. destruct (read m k) as [o|]; cbn [bind]; [|reflexivity].
    destruct (construct m i o); reflexivity.
Qed.

(** Block [b] holds [l] then raw memory. *)
Definition holds_seq (h : heap) (b c : nat) (v : svec) (l : list A) : Prop :=
  v = SV c (length l) (Some b) /\ length l <= c /\ nth_error h b = Some (map Obj (map Some l) ++ repeat Raw (c - length l)).

Definition as_inl l c : as_fv (length l) (map Obj (map Some l) ++ repeat Raw (c - length l)) = inl c (map (@Some A) l).
Proof. unfold as_fv, inl. now rewrite map_length. Qed.

Lemma sv_step h b c v l o : holds_seq h b c v l -> (forall k, o <> Reserve k) -> 
  match s_apply (Some c) dflt l o with
  | Done (l', r) => exists v' m, sv_apply dflt (h, v) o = Done (upd h b m, v', r) /\ holds_seq (upd h b m) b c v' l'
  | Fault _ => proper_range o -> sv_apply dflt (h, v) o = Fault FAssert
  end.
Proof.
  intros (-> & HL & E) HR. pose proof (apply_sim h c (length l) b _ o E HL HR) as S. rewrite as_inl in S.
  assert (R : rep false c (inl c (map Some l)) l) by (left; auto). assert (HB : b < length h) by (apply nth_error_Some; congruence).
  destruct (s_apply (Some c) dflt l o) as [[l' r]|f] eqn:EA.
  - destruct (apply_done false c dflt _ l o l' r R EA) as (f & Ef & R'). rewrite S, Ef. unfold sim. cbn [bind].
    destruct R' as [(-> & HL')|(H & _)]; [|discriminate]. do 2 eexists. split; [reflexivity|]. cbn [m_data inl count m_size]. split; [now rewrite map_length|].
    split; [exact HL'|]. rewrite nth_upd_block by assumption. now rewrite map_length.
  - intros P. destruct (apply_fault false c dflt _ l o f R P EA) as (f' & Ef & H). rewrite S, Ef. unfold sim. cbn [bind]. now rewrite H by (apply fb_inl).
Qed.

Lemma sv_history ops : forall h b c v l, holds_seq h b c v l -> (forall k, ~ In (Reserve k) ops) ->
  match s_run (Some c) dflt l ops with
  | Done (l', rs) => exists v' m, sv_run dflt (h, v) ops = Done (upd h b m, v', rs) /\ holds_seq (upd h b m) b c v' l'
  | Fault _ => Forall proper_range ops -> sv_run dflt (h, v) ops = Fault FAssert
  end.
Proof.
  induction ops as [|o ops IH]; intros h b c v l H HR; cbn [s_run sv_run].
  - destruct H as (-> & HL & E). do 2 eexists. split; [|split; [reflexivity|]].
    + rewrite upd_id by exact E. reflexivity.
    + rewrite upd_id by exact E. auto.
  - pose proof (sv_step h b c v l o H) as S. assert (HR1 : forall k, o <> Reserve k) by (intros k ->; exact (HR k (or_introl eq_refl))). specialize (S HR1).
    destruct (s_apply (Some c) dflt l o) as [[l1 r]|f]; cbn [bind].
    + destruct S as (v1 & m1 & -> & H1). cbn [bind]. specialize (IH _ b c v1 l1 H1 (fun k Hk => HR k (or_intror Hk))).
      destruct (s_run (Some c) dflt l1 ops) as [[l2 rs]|f2]; cbn [bind].
      * destruct IH as (v2 & m2 & -> & H2). cbn [bind]. rewrite upd_upd in *. do 2 eexists. split; [reflexivity | exact H2].
      * intros P. inversion P as [|? ? P1 P2]; subst. rewrite IH by assumption. reflexivity.
    + intros P. inversion P as [|? ? P1 P2]; subst. rewrite S by assumption. reflexivity.
Qed.

(** Destroying [n] elements of block [b]. *)
Lemma destroy_all h b (q : list (option A)) R : nth_error h b = Some (map Obj q ++ R) ->
  foreach (range 0 (length q)) (fun h i => destroy_at h (Some b) i) h = Done (upd h b (repeat Raw (length q) ++ R)).
Proof.
  intros E. rewrite (foreach_ext _ (fun h i => on_block h (Some b) (fun m => destroy m i))) by (intros; apply destroy_block).
  rewrite (foreach_block (fun m i => destroy m i) b _ h _ E).
  pose proof (destroy_range_spec q [] R 0 (length q) eq_refl eq_refl) as D. unfold destroy_range in D. cbn [app] in D. change (fun m i => destroy m i) with (@destroy A). now rewrite D.
Qed.

(** Destroying more elements than there are live objects is undefined. *)
Lemma destroy_too_many h b (q : list (option A)) R n : nth_error h b = Some (map Obj q ++ R) -> (R = [] \/ exists R', R = Raw :: R') -> length q < n ->
  foreach (range 0 n) (fun h i => destroy_at h (Some b) i) h = Fault FUB.
Proof.
  intros E HR Hn. unfold range. rewrite Nat.sub_0_r. replace n with (length q + S (n - length q - 1)) by lia. rewrite seq_app, foreach_app.
  pose proof (destroy_all h b q R E) as D. unfold range in D. rewrite Nat.sub_0_r in D. rewrite D. cbn [bind Nat.add seq foreach].
  assert (b < length h) by (apply nth_error_Some; congruence). rewrite destroy_block, (on_block_some _ b (repeat Raw (length q) ++ R)) by (now apply nth_upd_block).
  unfold destroy. destruct HR as [->|(R' & ->)].
  - rewrite app_nil_r. replace (nth_error (repeat Raw (length q)) (length q)) with (@None (cell A)); [reflexivity|]. symmetry. apply nth_error_None. now rewrite repeat_length.
  - rewrite nth_error_mid by (now rewrite repeat_length). reflexivity.
Qed.

(** Destroying elements through null: only element 0 is skipped. *)
Lemma destroy_null h n : foreach (range 0 n) (fun h i => destroy_at h None i) h = if n <=? 1 then Done h else Fault FUB.
Proof. destruct n as [|[|n]]; reflexivity. Qed.

Lemma sv_destroy_eq h v : sv_destroy dflt h v = foreach (range 0 (v_size v)) (fun h i => destroy_at h (v_ptr v) i) h.
Proof.
  unfold sv_destroy, sv_clear, sv_resize. cbn [Nat.leb assert bind]. replace (v_size v <? 0) with false by reflexivity. destruct (Nat.ltb_spec 0 (v_size v)) as [H|H].
  - destruct (foreach _ _ h); reflexivity.
  - replace (v_size v) with 0 by lia. reflexivity.
Qed.

Lemma sa_new_spec h b n R : nth_error h b = Some (repeat Raw n ++ R) ->
  sa_new dflt h b n = Done (upd h b (map Obj (repeat (Some dflt) n) ++ R), SA n (Some b)).
Proof.
  intros E. unfold sa_new. rewrite (foreach_block (fun m i => construct m i (Some dflt)) b _ h _ E).
  pose proof (construct_range_spec n [] R (Some dflt) 0 n eq_refl eq_refl) as C. unfold construct_range in C. cbn [app] in C. rewrite C. reflexivity.
Qed.
End Stack.
