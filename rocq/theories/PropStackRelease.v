(** Property C125: StackVector and StackArray compiled without assertions. *)
From Verif Require Import CellModel CellProofs VectorSpec VectorModel VectorProofs VectorHistory VectorCopy VectorReleaseModel StackModel StackProofs StackReleaseModel Release StackRelease PropStack PropVectorRelease.

(** Calls whose assertions hold do the same without them. *)
Theorem C125_history : forall (A : Type) (dflt : A) ops s, sv_run dflt s ops <> Fault FAssert -> rsv_run dflt s ops = sv_run dflt s ops.
Proof. intros A dflt ops s. exact (follows_not _ _ (fol_srun dflt ops s)). Qed.
Print Assumptions C125_history.
Theorem C125_members : forall (A : Type) (dflt : A) (h : list (list (cell A))) v a i x k,
  (sv_at h v i <> Fault FAssert -> rsv_at h v i = sv_at h v i) /\ (sv_front h v <> Fault FAssert -> rsv_front h v = sv_front h v) /\
  (sv_back h v <> Fault FAssert -> rsv_back h v = sv_back h v) /\ (sv_destroy dflt h v <> Fault FAssert -> rsv_destroy dflt h v = sv_destroy dflt h v) /\
  (sv_emplace_own h v i k <> Fault FAssert -> rsv_emplace_own h v i k = sv_emplace_own h v i k) /\ (sv_push_own h v k <> Fault FAssert -> rsv_push_own h v k = sv_push_own h v k) /\
  (sa_at h a i <> Fault FAssert -> rsa_at h a i = sa_at h a i) /\ (sa_set h a i x <> Fault FAssert -> rsa_set h a i x = sa_set h a i x) /\ (sa_back h a <> Fault FAssert -> rsa_back h a = sa_back h a).
Proof.
  intros A dflt h v a i x k. split; [exact (follows_not _ _ (fol_sat h v i))|]. split; [exact (follows_not _ _ (fol_sfront h v))|]. split; [exact (follows_not _ _ (fol_sback h v))|].
  split; [exact (follows_not _ _ (fol_sdestroy dflt h v))|]. split; [exact (follows_not _ _ (fol_semplace h v i _))|]. split; [exact (follows_not _ _ (fol_spush h v _))|].
  split; [exact (follows_not _ _ (fol_aat h a i))|]. split; [exact (follows_not _ _ (fol_aset h a i x)) | exact (follows_not _ _ (fol_aback h a))].
Qed.
Print Assumptions C125_members.
(** Histories the bounded sequence accepts give its contents, and the destructor gives the memory back. *)
Theorem C125_specified : forall (A : Type) (dflt : A) h b c ops l rs,
  nth_error h b = Some (repeat Raw c) -> (forall n, ~ In (Reserve n) ops) -> s_run (Some c) dflt [] ops = Done (l, rs) ->
  exists h' v, rsv_run dflt (h, sv_new b c) ops = Done (h', v, rs) /\ v_size v = length l /\
    (forall i a, nth_error l i = Some a -> rsv_at h' v i = Done (Some a)) /\ rsv_destroy dflt h' v = Done h /\ forall b', b' <> b -> nth_error h' b' = nth_error h b'.
Proof.
  intros A dflt h b c ops l rs E HR S. destruct (C38_stack_vector_history A dflt h b c ops l rs E HR S) as (h' & v & R & (S1 & S2 & _ & _ & S5) & O).
  exists h', v. split; [exact (follows_done _ _ _ (fol_srun dflt ops _) R)|]. split; [exact S1|]. split; [|split; [|exact O]].
  - intros i a N. apply (follows_done _ _ _ (fol_sat h' v i)). now rewrite S2, N.
  - exact (follows_done _ _ _ (fol_sdestroy dflt h' v) S5).
Qed.
Print Assumptions C125_specified.
(** A call with a violated precondition is undefined, except that erasing an empty range anywhere does nothing,
    and that inserting beyond the end of a vector with room leaves a hole over which reading and the destructor go. *)
Theorem C125_violations_refuted : forall (A : Type) (dflt : A) h b c v l o f, holds_seq h b c v l -> s_apply (Some c) dflt l o = Fault f -> (forall n, o <> Reserve n) ->
  rsv_apply dflt (h, v) o = Fault FUB \/
  (exists i, o = EraseRange i i /\ rsv_apply dflt (h, v) o = Done (h, v, Some i)) \/
  (exists i a, (o = Insert i a \/ o = InsertMove i a) /\ length l < i < c /\
     exists h' v', rsv_apply dflt (h, v) o = Done (h', v', Some i) /\ v_size v' = length l + 1 /\ rsv_at h' v' (length l) = Fault FUB /\ rsv_destroy dflt h' v' = Fault FUB).
Proof.
  intros A dflt h b c v l o f (-> & HL & E) S HR. pose proof (rapply_sim dflt h c (length l) b _ o E HR) as M. rewrite as_inl in M.
  assert (HB : b < length h) by (apply nth_error_Some; congruence).
  assert (R : rep false c (inl c (map Some l)) l) by (left; auto).
  destruct (C124_violations_refuted false c dflt _ l o f R S) as [F|[(n & -> & _)|[(i & -> & F)|(i & a & O & L & v' & F & SZ & AT & D)]]].
  - left. rewrite M, F. reflexivity.
  - exfalso. exact (HR n eq_refl).
  - right; left. exists i. split; [reflexivity|]. rewrite M, F. unfold sim. cbn [bind inl m_data count m_size]. rewrite map_length, upd_id by exact E. reflexivity.
  - right; right. exists i, a. split; [exact O|]. split; [exact L|]. exists (upd h b (m_data v')), (SV c (count v') (Some b)). split; [rewrite M, F; reflexivity|].
    assert (NB : nth_error (upd h b (m_data v')) b = Some (m_data v')) by (now apply nth_upd_block).
    split; [exact SZ|]. split.
    + unfold rsv_at, read_block. cbn [v_ptr]. rewrite (vget_some _ _ _ NB). exact AT.
    + unfold rsv_destroy, rsv_clear. rewrite (rresize_sim _ c (count v') b (m_data v') 0 dflt NB). unfold rv_resize_with, as_fv, IsUsingFallback. cbn [andb count m_size m_data fallback].
      change (fv_size false v') with (count v') in SZ. replace (count v' <? 0) with false by lia. replace (0 <? count v') with true by lia.
      unfold fv_destroy, fv_clear, IsUsingFallback in D. cbn [andb] in D. destruct (destroy_range (m_data v') 0 (count v')) as [m|e]; cbn [bind] in D |- *; [discriminate | injection D as ->; reflexivity].
Qed.
Print Assumptions C125_violations_refuted.
(** The vector without memory, and the elements outside an array or of an empty vector. *)
Theorem C125_null : forall (A : Type) (a : A) h i n, rsv_push h sv_null a = Fault FUB /\ rsv_emplace h sv_null i a = Fault FUB /\ rsv_resize h sv_null (S n) a = Fault FUB /\
  rsv_pop h (@sv_null) = Fault FUB /\ rsv_at h sv_null i = @Fault (option A) FUB /\ rsv_back h sv_null = @Fault (option A) FUB /\ rsv_destroy a h sv_null = Done h.
Proof. intros. repeat split; reflexivity. Qed.
Print Assumptions C125_null.
Theorem C125_array : forall (A : Type) h b (l : list A) x i, nth_error h b = Some (map Obj (map Some l)) ->
  (forall a, nth_error l i = Some a -> rsa_at h (SA (length l) (Some b)) i = Done (Some a)) /\
  (length l <= i -> rsa_at h (SA (length l) (Some b)) i = Fault FUB /\ rsa_set h (SA (length l) (Some b)) i x = Fault FUB) /\
  (l = [] -> rsa_back h (SA (length l) (Some b)) = Fault FUB).
Proof.
  intros A h b l x i E. split; [|split].
  - intros a N. unfold rsa_at, read_block. cbn [a_ptr]. rewrite (vget_some _ _ _ E). cbn [bind]. unfold read. rewrite map_map, (map_nth_error _ _ _ N). reflexivity.
  - intros L. unfold rsa_at, rsa_set, read_block. cbn [a_ptr]. rewrite (vget_some _ _ _ E), (on_block_some _ _ _ _ E). cbn [bind]. unfold read, assign.
    rewrite (proj2 (nth_error_None _ _)) by (rewrite !map_length; exact L). split; reflexivity.
  - intros ->. reflexivity.
Qed.
Print Assumptions C125_array.
Example C125_nonvacuous :
  sv_run 0 ([repeat Raw 3], sv_new 0 3) [PushCopy 1; Insert 2 7] = Fault FAssert /\
  rsv_run 0 ([repeat Raw 3], sv_new 0 3) [PushCopy 1; Insert 2 7] = Done ([[Obj (Some 1); Raw; Obj (Some 7)]], SV 3 2 (Some 0), [None; Some 2]) /\
  rsv_run 0 ([repeat Raw 3], sv_new 0 3) [PushCopy 1; Insert 0 7; Erase 1] = Done ([[Obj (Some 7); Raw; Raw]], SV 3 1 (Some 0), [None; Some 0; Some 1]) /\
  rsv_run 0 ([repeat Raw 1], sv_new 0 1) [PushCopy 1; PushCopy 2] = Fault FUB.
Proof. repeat split; reflexivity. Qed.
