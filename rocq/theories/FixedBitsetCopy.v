(** Copy, assignment and exchange of FixedBitset and HybridBitset. *)
From Verif Require Import Base CInt MathModel BitsetModel VectorModel CellProofs VectorProofs VectorCopy FixedBitsetModel FixedBitsetProofs.
Open Scope nat_scope.

Section P.
Variables (has : bool) (cap w : nat).
Implicit Types P : Prop.
Notation wrep := (wrep has cap).
Notation rel := (brel has cap).

(** A vector that can be assigned to: its elements may have been moved from. *)
Inductive target : fvec N -> Prop :=
| TInl : forall q, length q <= cap -> target (inl cap q)
| TSpl : forall m q, has = true -> target (FV FallbackInUse m q).

Lemma wrep_target l v : wrep l v -> target v.
Proof. intros [H|m H]; constructor; auto. now rewrite map_length. Qed.

Lemma nth_lt {A} (st : list A) d v : nth_error st d = Some v -> d < length st.
Proof. intros H. apply nth_error_Some. congruence. Qed.

Lemma push_over (m : list (cell N)) q o : has = true -> push_value has cap (FV FallbackInUse m q) o = Done (FV FallbackInUse m (q ++ [o]), true).
Proof. intros H. unfold push_value, CheckFallbackOnGrow, IsUsingFallback. now rewrite H. Qed.

Lemma clear_over (m : list (cell N)) q : has = true -> fv_clear has (FV FallbackInUse m q) = Done (FV FallbackInUse m []).
Proof. intros H. unfold fv_clear, IsUsingFallback. now rewrite H. Qed.

Lemma copy_assign l v src st d s : d <> s -> target v -> wrep l src -> nth_error st d = Some v -> nth_error st s = Some src ->
  exists v', fv_assign has cap st d s = Done (upd st d v') /\ wrep l v'.
Proof.
  intros Hds Hv Hs Ed Es. pose proof (nth_lt _ _ _ Ed) as Ld.
  destruct Hs as [HL|m Hh].
  - set (q := map Some l) in *. assert (HLq : length q <= cap) by (unfold q; now rewrite map_length).
    destruct Hv as [q0 H0|m q0 Hh].
    + rewrite (assign_from_inline has cap st d s (inl cap) q0 q Hds) by (auto; now left). eexists. split; [reflexivity|]. now constructor.
    + exists (FV FallbackInUse m q). split; [|now constructor].
      unfold fv_assign. rewrite (vget_some _ _ _ Es), (vget_some _ _ _ Ed). cbn [bind]. rewrite fb_inl, clear_over by assumption. cbn [bind].
      rewrite vset_done by assumption. cbn [bind]. rewrite (vget_upd_other st d _ s) by congruence. rewrite (vget_some _ _ _ Es). cbn [bind].
      rewrite vget_upd_same by assumption. cbn [bind]. rewrite size_inl, reserve_small by assumption. cbn [bind].
      rewrite vset_done by (now rewrite upd_length). rewrite upd_upd. cbn [bind]. rewrite (vget_upd_other st d _ s) by congruence. rewrite (vget_some _ _ _ Es). cbn [bind].
      rewrite size_inl.
      destruct (foreach_range (fun i st' => st' = upd st d (FV FallbackInUse m (firstn i q)))
        (fun st i => src <- vget st s ;; dst <- vget st d ;; o <- fv_at has src i ;; ' (dst, _) <- push_value has cap dst o ;; vset st d dst)
        0 (length q) (upd st d (FV FallbackInUse m []))) as (st' & E & ->); [lia | reflexivity | |].
      * intros i st' Hi ->. rewrite vget_upd_other by congruence. rewrite (vget_some _ _ _ Es). cbn [bind]. rewrite vget_upd_same by assumption. cbn [bind].
        rewrite at_inl by lia. cbn [bind]. rewrite push_over by assumption. cbn [bind].
        rewrite vset_done by (now rewrite upd_length). rewrite upd_upd. eexists. split; [reflexivity|]. now rewrite (firstn_next q i None) by lia.
      * now rewrite E, firstn_all.
  - unfold fv_assign. rewrite (vget_some _ _ _ Es), (vget_some _ _ _ Ed). cbn [bind]. unfold IsUsingFallback. rewrite Hh. cbn [andb m_size fallback].
    rewrite vset_done by assumption. eexists. split; [reflexivity|]. now constructor.
Qed.

Lemma move_assign l v src st d s : d <> s -> target v -> wrep l src -> nth_error st d = Some v -> nth_error st s = Some src ->
  exists v' src', fv_move_assign has cap st d s = Done (upd (upd st d v') s src') /\ wrep l v' /\ target src'.
Proof.
  intros Hds Hv Hs Ed Es. pose proof (nth_lt _ _ _ Ed) as Ld. pose proof (nth_lt _ _ _ Es) as Ls.
  destruct Hs as [HL|m Hh].
  - set (q := map Some l) in *. assert (HLq : length q <= cap) by (unfold q; now rewrite map_length).
    destruct Hv as [q0 H0|m q0 Hh].
    + rewrite (move_assign_from_inline has cap st d s (inl cap) q0 q Hds) by (auto; now left). cbn [m_size inl]. rewrite andb_false_r.
      exists (inl cap q), (inl cap (repeat None (length q))). split; [reflexivity|]. split; [now constructor | constructor; now rewrite repeat_length].
    + exists (FV FallbackInUse m q), (inl cap q). split; [|split; [now constructor | now constructor]].
      unfold fv_move_assign. rewrite Hh. rewrite (vget_some _ _ _ Es), (vget_some _ _ _ Ed). cbn [bind m_size m_data fallback inl].
      rewrite vset_done by assumption. cbn [bind]. rewrite vget_upd_other by congruence. rewrite (vget_some _ _ _ Es). cbn [bind m_size m_data inl]. fold (inl cap q).
      rewrite vset_done by (now rewrite upd_length). cbn [bind].
      rewrite (upd_id _ s) by (rewrite nth_error_upd; replace (s =? d) with false by lia; exact Es).
      rewrite vget_upd_other by congruence. rewrite (vget_some _ _ _ Es). cbn [bind]. rewrite vget_upd_same by assumption. cbn [bind].
      rewrite <- Hh. rewrite fb_inl, clear_over by assumption. cbn [bind]. rewrite vset_done by (now rewrite upd_length). rewrite upd_upd. cbn [bind].
      rewrite vget_upd_other by congruence. rewrite (vget_some _ _ _ Es). cbn [bind]. rewrite vget_upd_same by assumption. cbn [bind].
      rewrite size_inl, reserve_small by assumption. cbn [bind]. rewrite vset_done by (now rewrite upd_length). rewrite upd_upd. cbn [bind].
      rewrite vget_upd_other by congruence. rewrite (vget_some _ _ _ Es). cbn [bind]. rewrite size_inl.
      destruct (foreach_range (fun i st' => st' = upd (upd st d (FV FallbackInUse m (firstn i q))) s (inl cap q))
        (fun st i => src <- vget st s ;; assert (i <? fv_size has src) ;;; dst <- vget st d ;; o <- read (m_data src) i ;;
            ' (dst, copied) <- push_value has cap dst o ;; st <- vset st d dst ;; src <- vget st s ;;
            m <- (if copied : bool then Done (m_data src) else ' (_, m) <- take (m_data src) i ;; Done m) ;;
            vset st s (FV (m_size src) m (fallback src)))
        0 (length q) (upd st d (FV FallbackInUse m []))) as (st' & E & ->).
      * lia.
      * symmetry. apply upd_id. rewrite nth_error_upd. now replace (s =? d) with false by lia.
      * intros i st' Hi ->.
        assert (RD : read (m_data (inl cap q)) i = Done (nth i q None)).
        { rewrite inl_data. change (map (@Obj N) q ++ ?R) with ([] ++ map (@Obj N) q ++ R).
          rewrite (read_nth _ _ _ _ None) by (simpl; lia). simpl. now rewrite Nat.sub_0_r. }
        rewrite vget_upd_same by (now rewrite upd_length). cbn [bind]. rewrite size_inl. replace (i <? length q) with true by lia. cbn [assert bind].
        rewrite vget_upd_other by congruence. rewrite vget_upd_same by assumption. cbn [bind]. rewrite RD. cbn [bind].
        rewrite push_over by assumption. cbn [bind].
        rewrite vset_done by (now rewrite !upd_length). cbn [bind]. rewrite vget_upd_other by congruence. rewrite vget_upd_same by (now rewrite upd_length). cbn [bind].
        rewrite vset_done by (now rewrite !upd_length). eexists. split; [reflexivity|].
        rewrite (upd_comm _ s d) by congruence. rewrite upd_upd, upd_upd. now rewrite (firstn_next q i None) by lia.
      * now rewrite E, firstn_all.
  - exists (FV FallbackInUse (m_data v) (map Some l)), (FV FallbackInUse m []).
    split; [|split; [now constructor | now constructor]].
    unfold fv_move_assign. rewrite Hh. rewrite (vget_some _ _ _ Es), (vget_some _ _ _ Ed). cbn [bind]. rewrite vset_done by assumption. cbn [bind].
    rewrite vget_upd_other by congruence. rewrite (vget_some _ _ _ Es). cbn [bind]. rewrite vset_done by (now rewrite upd_length). cbn [bind m_size m_data].
    rewrite vget_upd_same by (now rewrite upd_length). cbn [bind]. rewrite vget_upd_other by congruence. rewrite vget_upd_same by assumption. cbn [bind].
    unfold IsUsingFallback. cbn [andb m_size]. rewrite vset_done by (now rewrite !upd_length). f_equal. cbn [m_data fallback m_size].
    rewrite (upd_comm _ s d) by congruence. now rewrite upd_upd.
Qed.

Lemma move_construct l v : wrep l v -> exists v' src', fv_move has cap v = Done (v', src') /\ wrep l v' /\ target src'.
Proof.
  intros [H|m H].
  - rewrite move_inl by (now rewrite map_length). eexists _, _. split; [reflexivity|]. split; constructor; auto. rewrite repeat_length. now rewrite map_length.
  - unfold fv_move, IsUsingFallback. rewrite H. cbn. eexists _, _. split; [reflexivity|]. split; now constructor.
Qed.

(** Moving a vector onto itself leaves an empty one. *)
Lemma move_self v st d : target v -> nth_error st d = Some v -> exists v', fv_move_assign has cap st d d = Done (upd st d v') /\ target v'.
Proof.
  intros Hv Ed. pose proof (nth_lt _ _ _ Ed) as Ld. destruct Hv as [q H|m q Hh].
  - rewrite (move_assign_self_inline has cap st d q) by assumption. eexists. split; [reflexivity|]. constructor. simpl. lia.
  - exists (FV FallbackInUse m []). split; [|now constructor].
    unfold fv_move_assign. rewrite Hh, (vget_some _ _ _ Ed). cbn [bind]. rewrite vset_done by assumption. cbn [bind]. rewrite vget_upd_same by assumption. cbn [bind].
    rewrite vset_done by (now rewrite upd_length). rewrite upd_upd. cbn [bind]. rewrite vget_upd_same by assumption. cbn [bind m_size m_data].
    unfold IsUsingFallback. cbn [andb m_size]. rewrite vset_done by (now rewrite upd_length). now rewrite upd_upd.
Qed.

Lemma swap_done la lb a b : wrep la a -> wrep lb b -> exists a' b', swap_blocks has cap a b = Done (a', b') /\ wrep lb a' /\ wrep la b'.
Proof.
  intros Ha Hb. unfold swap_blocks. destruct (move_construct la a Ha) as (tmp & a1 & -> & Ht & Ta). cbn [bind].
  destruct (move_assign lb a1 b [a1; b; tmp] 0 1) as (a2 & b1 & -> & H2 & Tb); auto. cbn [bind upd].
  destruct (move_assign la b1 tmp [a2; b1; tmp] 1 2) as (b2 & t1 & -> & H3 & _); auto. cbn [bind upd vget nth_error].
  eauto.
Qed.

Lemma swap_self_done l a : wrep l a -> exists a', swap_self has cap a = Done a' /\ wrep l a'.
Proof.
  intros Ha. unfold swap_self. destruct (move_construct l a Ha) as (tmp & a1 & -> & Ht & Ta). cbn [bind].
  destruct (move_self a1 [a1; tmp] 0) as (a2 & -> & T2); auto. cbn [bind upd].
  destruct (move_assign l a2 tmp [a2; tmp] 0 1) as (a3 & t1 & -> & H3 & _); auto. cbn [bind upd vget nth_error]. eauto.
Qed.

Lemma copy_done l v : wrep l v -> exists v', fv_copy has cap v = Done v' /\ wrep l v'.
Proof.
  intros [H|m H].
  - rewrite copy_inl by (now rewrite map_length). eexists. split; [reflexivity|]. now constructor.
  - unfold fv_copy, IsUsingFallback. rewrite H. cbn. eexists. split; [reflexivity|]. now constructor.
Qed.

(** ** Several bitsets *)
Definition srel (st : nat -> bitset) (g : nat -> fbitset) : Prop := forall r, rel (st r) (g r).

Lemma put_rel st g d b x : srel st g -> rel b x -> srel (sput st d b) (fput g d x).
Proof. intros H Hb r. unfold sput, fput. destruct (r =? d); auto. Qed.

Lemma s_put P st g d b x : srel st g -> rel b x -> sim P srel (Done (sput st d b)) (Done (fput g d x)).
Proof. intros. apply sim_done. now apply put_rel. Qed.

Lemma s_put_block P st g d i x : srel st g -> sim P srel (sput_block st d i x) (fput_block has g d i x).
Proof.
  intros H. unfold sput_block, fput_block. destruct (H d) as [HB E]. rewrite E. apply sim_bind with wrep; [now apply s_bset|].
  intros l v R. apply s_put; [exact H | now split].
Qed.

Lemma s_put_mask P st g d : srel st g -> sim P srel (BitsetModel.s_ResetExtraBits w st d) (fput_ResetExtraBits has w g d).
Proof.
  intros H. unfold BitsetModel.s_ResetExtraBits, fput_ResetExtraBits. apply sim_bind with rel; [now apply FixedBitsetProofs.s_ResetExtraBits|]. intros. now apply s_put.
Qed.

(** resize() of the destination to the number of blocks of an operand. *)
Lemma s_put_size P st g d n c : srel st g -> (has = true \/ n <= cap) ->
  sim P srel (Done (sput (sput st d (mkB (vresize (blocks (st d)) n 0%N) (bitCount (st d)))) d
    (mkB (blocks (sput st d (mkB (vresize (blocks (st d)) n 0%N) (bitCount (st d))) d)) c))) (fput_size has cap g d n c).
Proof.
  intros H F. unfold fput_size, fv_resize. destruct (H d) as [HB E].
  assert (S : sim False wrep (Done (vresize (blocks (st d)) n 0%N)) (fv_resize_with has cap (fblocks (g d)) n (ByCopy 0%N))).
  { apply s_resize; [exact HB|]. intros [C1 C2]. destruct F; [congruence | lia]. }
  destruct S as [(v & -> & R)|[_ []]]. cbn [bind]. apply sim_done. intros r. unfold sput, fput. rewrite Nat.eqb_refl. cbn [blocks].
  destruct (r =? d); [now split | apply H].
Qed.

Lemma count_put st d l a : GetSize (sput st d (mkB l (bitCount (st d))) a) = GetSize (st a).
Proof. unfold sput, GetSize. destruct (Nat.eqb_spec a d) as [->|]; reflexivity. Qed.

Lemma s_put_loop P st g l f h : srel st g -> (forall i st g, srel st g -> sim P srel (f st i) (h g i)) -> sim P srel (foreach l f st) (foreach l h g).
Proof. intros H K. apply sim_foreach with (R := srel); [exact H|]. intros. now apply K. Qed.

Ltac puts := intros; repeat (apply sim_bind with eq; [apply s_GetBlock with cap; match goal with H : srel _ _ |- _ => apply H end | intros ? ? <-]); now apply s_put_block.
Ltac first_resize H :=
  match goal with |- sim ?P ?R (bind (foreach ?r ?f ?s) ?k) ?y => change (sim P R (bind (Done s) (fun s' => bind (foreach r f s') k)) y) end;
  apply sim_bind with srel; [apply s_put_size; [exact H|] | intros ? ? ?].

Lemma fits st g : srel st g -> forall r, has = true \/ GetBlockCount (st r) <= cap.
Proof. intros H r. exact (w_fits has cap _ _ (proj1 (H r))). Qed.

Lemma s_PerformsAND P st g d a b : srel st g -> sim P srel (PerformsAND w st d a b) (fb_PerformsAND has cap w g d a b).
Proof.
  intros H. unfold PerformsAND, fb_PerformsAND. cbv zeta. rewrite !count_put, !(r_count has cap _ _ (H _)), !(r_size has cap _ _ (H _)).
  first_resize H.
  - destruct (fits st g H a), (fits st g H b); auto. right. lia.
  - apply sim_bind with srel; [apply s_put_loop; [assumption|]; puts|]. intros.
    apply sim_bind with srel; [apply s_put_loop; [assumption|]; puts|]. intros. now apply s_put_mask.
Qed.

Lemma s_PerformsNOT P st g d a : srel st g -> sim P srel (PerformsNOT w st d a) (fb_PerformsNOT has cap w g d a).
Proof.
  intros H. unfold PerformsNOT, fb_PerformsNOT. cbv zeta. rewrite !count_put, !(r_count has cap _ _ (H _)), !(r_size has cap _ _ (H _)).
  pose proof (fits st g H a) as F.
  match goal with |- sim ?P ?R (bind (foreach ?r ?f ?s) ?k) ?y =>
    change (sim P R (bind (Done s) (fun s' => bind (foreach (range 0 (length (blocks (s' d)))) f s') k)) y) end.
  apply sim_bind with srel; [apply s_put_size; auto|]. intros st1 g1 H1. rewrite (w_size has cap _ _ (proj1 (H1 d))).
  apply sim_bind with srel; [apply s_put_loop; [assumption|]; puts|]. intros. now apply s_put_mask.
Qed.

Lemma s_PerformsOp P op st g d a b : srel st g -> sim P srel (PerformsOp w op st d a b) (fb_PerformsOp has cap w op g d a b).
Proof.
  intros H. unfold PerformsOp, fb_PerformsOp. cbv zeta. rewrite !(r_size has cap _ _ (H _)), !(r_count has cap _ _ (H _)), !count_put.
  first_resize H.
  - apply (fits st g H).
  - apply sim_bind with srel; [apply s_put_loop; [assumption|]; puts|]. intros.
    apply sim_bind with srel; [apply s_put_loop; [assumption|]; puts|]. intros. now apply s_put_mask.
Qed.

(** The defaulted copy assignment between two bitsets. *)
Lemma s_assign P st g d s : srel st g -> d <> s -> sim P srel (Done (sput st d (st s))) (fb_assign has cap g d s).
Proof.
  intros H N. unfold fb_assign. destruct (Nat.eqb_spec d s) as [->|_]; [contradiction|].
  destruct (H s) as [HB E]. destruct (copy_assign (blocks (st s)) (fblocks (g d)) (fblocks (g s)) [fblocks (g d); fblocks (g s)] 0 1) as (v & -> & R); auto.
  - apply wrep_target with (blocks (st d)). apply H.
  - cbn [bind upd vget nth_error]. apply s_put; [exact H|]. now split.
Qed.

Lemma s_Swap P st g a b : srel st g -> sim P srel (Done (Swap st a b)) (fb_Swap has cap g a b).
Proof.
  intros H. unfold fb_Swap, Swap. destruct (H a) as [Ha Ea]. destruct (H b) as [Hb Eb]. destruct (Nat.eqb_spec a b) as [->|N].
  - destruct (swap_self_done _ _ Hb) as (v & -> & R). cbn [bind]. apply sim_done. intros r. unfold sput, fput.
    destruct (Nat.eqb_spec r b) as [->|]; [now split | apply H].
  - destruct (swap_done _ _ _ _ Ha Hb) as (x & y & -> & Rx & Ry). cbn [bind]. apply sim_done. intros r. unfold sput, fput.
    destruct (Nat.eqb_spec r b) as [->|]; [now split |]. destruct (Nat.eqb_spec r a) as [->|]; [now split | apply H].
Qed.

(** Move assignment from a temporary. *)
Lemma s_emplace P st g d b x : srel st g -> rel b x -> sim P srel (Done (sput st d b)) (fb_emplace has cap g d x).
Proof.
  intros H [HB E]. unfold fb_emplace. destruct (H d) as [Hd _].
  destruct (move_assign (blocks b) (fblocks (g d)) (fblocks x) [fblocks (g d); fblocks x] 0 1) as (v & v' & -> & R & _); auto.
  - now apply wrep_target with (blocks (st d)).
  - cbn [bind upd vget nth_error]. apply s_put; [exact H|]. now split.
Qed.
End P.
