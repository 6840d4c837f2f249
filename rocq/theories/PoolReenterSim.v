(** C137: the pool follows the slots while constructors and destructors run. *)
From Verif Require Import Base CellProofs BitsetSpec BitsetBits BitsetProofs BitsetFind VectorCopy PoolModel PoolProofs PoolHistory PoolReset PropPool VisitProofs PoolReenterModel PoolReenterSpec PoolReenter.
Open Scope nat_scope.

Section Sim.
Context {A : Type}.
Variables (stride : N) (bs : nat) (ctor dtor : A -> list (call A)).
Hypothesis bs_pos : 0 < bs.
Notation sp_exec := (sp_exec bs ctor dtor).
Notation sp_one := (sp_one bs ctor dtor).
Notation sp_wipe := (sp_wipe bs ctor dtor).
Notation sp_reset := (sp_reset bs ctor dtor).
Notation exec := (exec stride ctor dtor).
Notation exec_one := (exec_one stride ctor dtor).
Notation reached := (reached stride bs).
Implicit Types (l : list (slot A)) (p : @pool A).

(** *** Any calls, on a pool in use *)
Lemma run_one p l o l' r : reached p l -> 2 <= bs \/ o <> PClear -> sp_apply bs l o = Done (l', r) -> exists p' x, pool_apply stride p o = Done (p', x) /\ reached p' l'.
Proof.
  intros R C E. destruct (reached_run stride bs bs_pos p l [o] l' [r] R) as (p' & ptrs & EP & R').
  - destruct C as [C|C]; [now left|right; intros [X|[]]; congruence].
  - cbn [sp_run]. now rewrite E.
  - cbn [pool_run] in EP. destruct (pool_apply stride p o) as [(p1, x)|]; [|discriminate]. cbn [bind] in EP. injection EP as <- <-. eauto.
Qed.
Lemma object_reached p l i a : reached p l -> nth_error l i = Some (Live a) -> object_at p i = Done a.
Proof.
  intros R E. destruct (reached_rep stride bs bs_pos p l R) as (ss & RP & <-). pose proof RP as (HB & H). destruct (rows_split bs ss i _ bs_pos (rep_rows bs p ss RP) E) as (s & Es & Ex). destruct (Forall2_nth _ _ _ _ _ H Es) as (b & Eb & (HL & HC & HM & _)).
  unfold object_at. rewrite HB, (vget_some _ _ _ Eb). cbn [bind]. rewrite HM, (map_nth_error _ _ _ Ex). reflexivity.
Qed.
Lemma split_reached p l i : reached p l -> split_index p i = Done (i / bs, i mod bs).
Proof. intros R. unfold split_index. rewrite (reached_size stride bs bs_pos p l R). replace (negb (bs =? 0)) with true by (symmetry; apply Bool.negb_true_iff, Nat.eqb_neq; lia). reflexivity. Qed.

Lemma exec_reached : forall depth cs p l l', reached p l -> sp_exec depth cs l = Done l' -> exists p', exec depth cs p = Done p' /\ reached p' l'.
Proof.
  induction depth as [|depth IH]; [discriminate|]. cbn [PoolReenterSpec.sp_exec PoolReenterModel.exec]. induction cs as [|c cs IHc]; intros p l l' R E; cbn [sp_all each] in *; [injection E as <-; eauto|].
  destruct (sp_one (sp_exec depth) c l) as [l1|] eqn:E1; [|discriminate]. cbn [bind] in E.
  enough (X : exists p1, exec_one (exec depth) c p = Done p1 /\ reached p1 l1). { destruct X as (p1 & -> & R1). cbn [bind]. now apply (IHc p1 l1). }
  clear E IHc. destruct c as [a at_|i]; cbn [PoolReenterSpec.sp_one PoolReenterModel.exec_one] in *.
  - destruct (take_spec bs l (@Deferred A)) as (l2 & i & ET & Li & LL & Ni & _). rewrite ET in E1. destruct (sp_exec depth (ctor a) l2) as [l3|] eqn:E2; [|discriminate]. injection E1 as <-.
    destruct (run_one p l (PDefer at_) l2 (Some i) R) as (p1 & x & EP & R1); [right; discriminate|cbn [sp_apply]; now rewrite ET|]. cbn [pool_apply] in EP.
    destruct (reached_rep stride bs bs_pos p l R) as (ss & RP & <-). pose proof (Allocate_defer_rep bs stride bs_pos p ss at_ RP) as D. rewrite ET in D. destruct D as (p2 & ss2 & D & _). rewrite D in *. cbn [bind] in EP |- *. injection EP as -> <-.
    destruct (IH (ctor a) p1 l2 l3 R1 E2) as (p3 & -> & R3). cbn [bind]. destruct (exec_keeps bs ctor dtor depth _ _ _ E2) as (_ & K). pose proof (K i Ni) as N3.
    destruct (run_one p3 l3 (PConstruct i a) (upd l3 i (Live a)) None R3) as (p4 & y & EP & R4); [right; discriminate|cbn [sp_apply]; now rewrite N3|]. cbn [pool_apply] in EP. destruct (user_construct p3 i a) as [p5|]; [|discriminate]. cbn [bind] in EP. injection EP as -> <-. eauto.
  - destruct (nth_error l i) as [[| |a]|] eqn:N; try discriminate. destruct (sp_exec depth (dtor a) (upd l i Deferred)) as [l3|] eqn:E2; [|discriminate]. injection E1 as <-. rewrite (split_reached p l i R). cbn [bind].
    destruct (reached_pointer stride bs bs_pos p l i R) as (ad & ->); [apply nth_error_Some; congruence|now rewrite (nth_error_nth _ _ _ N)|]. cbn [bind]. rewrite (object_reached p l i a R N). cbn [bind].
    destruct (run_one p l (PDestroy i) (upd l i Deferred) None R) as (p1 & x & EP & R1); [right; discriminate|cbn [sp_apply]; now rewrite N|]. cbn [pool_apply] in EP. destruct (user_destroy p i) as [p2|]; [|discriminate]. cbn [bind] in EP |- *. injection EP as -> <-.
    destruct (IH (dtor a) p1 _ l3 R1 E2) as (p3 & -> & R3). cbn [bind]. destruct (exec_keeps bs ctor dtor depth _ _ _ E2) as (_ & K). assert (N3 : nth_error l3 i = Some Deferred) by (apply K, nth_at, nth_error_Some; congruence).
    destruct (run_one p3 l3 (PFreeNoDestruction i) (upd l3 i Vacant) None R3) as (p4 & y & EP & R4); [right; discriminate|cbn [sp_apply]; now rewrite N3|]. cbn [pool_apply] in EP. unfold Free_nodestruction in EP. rewrite (split_reached p3 l3 i R3) in EP. cbn [bind] in EP. destruct (release p3 (i / bs) (i mod bs)) as [p5|]; [|discriminate]. cbn [bind] in EP. injection EP as -> <-. eauto.
Qed.
Lemma one_fault p l i : reached p l -> match nth_error l i with Some (Live _) => True | Some Deferred => forall rec, exec_one rec (CFree i) p = Fault FUB | _ => forall rec, exec_one rec (CFree i) p = Fault FAssert end.
Proof.
  intros R. destruct (reached_rep stride bs bs_pos p l R) as (ss & RP & <-). pose proof (Retrieve_rep bs stride bs_pos p ss i RP) as E. unfold RetrieveFromIndex in E. rewrite (split_reached p _ i R) in E. cbn [bind] in E.
  destruct (nth_error (concat ss) i) as [[| |a]|] eqn:N; [| |exact Logic.I|]; intros rec; cbn [PoolReenterModel.exec_one]; rewrite (split_reached p _ i R); cbn [bind held vacant negb] in *; rewrite E; cbn [bind]; try reflexivity.
  pose proof RP as (HB & H). destruct (rows_split bs ss i _ bs_pos (rep_rows bs p ss RP) N) as (s & Es & Ex). destruct (Forall2_nth _ _ _ _ _ H Es) as (b & Eb & (HL & HC & HM & _)).
  unfold object_at. rewrite HB, (vget_some _ _ _ Eb). cbn [bind]. rewrite HM, (map_nth_error _ _ _ Ex). reflexivity.
Qed.

Lemma free_fault p l i : reached p l -> match nth_error l i with Some (Live _) => True | Some Deferred => Free stride p i = Fault FUB | _ => Free stride p i = Fault FAssert end.
Proof.
  intros R. destruct (reached_rep stride bs bs_pos p l R) as (ss & RP & <-). pose proof (Retrieve_rep bs stride bs_pos p ss i RP) as E. unfold RetrieveFromIndex in E. rewrite (split_reached p _ i R) in E. cbn [bind] in E.
  destruct (nth_error (concat ss) i) as [[| |a]|] eqn:N; [| |exact Logic.I|]; unfold Free; rewrite (split_reached p _ i R); cbn [bind held vacant negb] in *; rewrite E; cbn [bind]; try reflexivity.
  pose proof RP as (HB & H). destruct (rows_split bs ss i _ bs_pos (rep_rows bs p ss RP) N) as (s & Es & Ex). destruct (Forall2_nth _ _ _ _ _ H Es) as (b & Eb & (HL & HC & HM & _)).
  unfold on_cell. rewrite HB, (vget_some _ _ _ Eb). cbn [bind]. unfold destroy. rewrite HM, (map_nth_error _ _ _ Ex). reflexivity.
Qed.

(** *** Freeing calls, on a pool whose first blocks have been reset *)
Definition dead l : Prop := forall j a, nth_error l j <> Some (Live a).
Definition after pre (P : list (slot A)) p l : Prop := exists bl ss, p = MP bs (pre ++ bl) /\ Forall2 (blk bs) bl ss /\ l = P ++ concat ss.
Definition shrinks l l' : Prop := length l' = length l /\ (forall j a, nth_error l' j = Some (Live a) -> nth_error l j = Some (Live a)).
Lemma shrinks_trans l l1 l2 : shrinks l l1 -> shrinks l1 l2 -> shrinks l l2.
Proof. intros (H1 & H2) (H3 & H4). split; [congruence|auto]. Qed.
Lemma shrinks_upd l i s : (forall a, s <> Live a) -> shrinks l (upd l i s).
Proof. intros N. split; [apply upd_length|]. intros j a. rewrite nth_error_upd. destruct ((j =? i) && (i <? length l))%bool; [intros X; injection X as ->; now destruct (N a)|auto]. Qed.
Lemma freeing_shrinks l l' : shrinks l l' -> freeing dtor l -> freeing dtor l'.
Proof. intros (_ & H) F j a Hj. exact (F j a (H j a Hj)). Qed.

Lemma exec_shrinks : forall depth cs l l', freeing dtor l -> Forall (frees (A := A)) cs -> sp_exec depth cs l = Done l' -> shrinks l l'.
Proof.
  induction depth as [|depth IH]; [discriminate|]. cbn [PoolReenterSpec.sp_exec]. induction cs as [|c cs IHc]; intros l l' F FC E; cbn [sp_all] in E; [injection E as <-; split; auto|].
  inversion FC as [|? ? Fc FC']; subst. destruct (sp_one (sp_exec depth) c l) as [l1|] eqn:E1; [|discriminate]. cbn [bind] in E.
  enough (X : shrinks l l1). { apply (shrinks_trans l l1); [exact X|]. apply IHc; auto. exact (freeing_shrinks l l1 X F). }
  destruct c as [a at_|i]; [destruct Fc|]. cbn [PoolReenterSpec.sp_one] in E1. destruct (nth_error l i) as [[| |a]|] eqn:N; try discriminate. destruct (sp_exec depth (dtor a) (upd l i Deferred)) as [l3|] eqn:E2; [|discriminate]. injection E1 as <-.
  assert (X : shrinks l (upd l i Deferred)) by (apply shrinks_upd; discriminate). apply (shrinks_trans l l3); [|apply shrinks_upd; discriminate]. apply (shrinks_trans _ _ _ X). apply (IH (dtor a)); [exact (freeing_shrinks _ _ X F)|exact (F i a N)|exact E2].
Qed.
Lemma reset_shrinks depth : forall is l l', freeing dtor l -> sp_reset depth is l = Done l' -> shrinks l l' /\ forall i a, In i is -> nth_error l' i <> Some (Live a).
Proof.
  induction is as [|i is IH]; intros l l' F E; cbn [PoolReenterSpec.sp_reset] in E; [injection E as <-; split; [split; auto|intros ? ? []]|].
  destruct (sp_wipe depth i l) as [l1|] eqn:E1; [|discriminate]. cbn [bind] in E.
  assert (X : shrinks l l1 /\ forall a, nth_error l1 i <> Some (Live a)).
  { unfold PoolReenterSpec.sp_wipe in E1. destruct (nth_error l i) as [[| |a]|] eqn:N; try discriminate; try (injection E1 as <-; split; [split; auto|congruence]).
    assert (Y : shrinks l (upd l i Deferred)) by (apply shrinks_upd; discriminate). split; [apply (shrinks_trans _ _ _ Y); apply (exec_shrinks depth (dtor a)); [exact (freeing_shrinks _ _ Y F)|exact (F i a N)|exact E1]|].
    intros b Hb. destruct (exec_keeps bs ctor dtor depth _ _ _ E1) as (_ & K). rewrite (K i) in Hb; [discriminate|]. apply nth_at, nth_error_Some. congruence. }
  destruct X as (X1 & X2). destruct (IH l1 l' (freeing_shrinks _ _ X1 F) E) as (Y1 & Y2). split; [exact (shrinks_trans _ _ _ X1 Y1)|]. intros j a [<-|Hj]; [|now apply Y2]. intros Z. exact (X2 a (proj2 Y1 _ _ Z)).
Qed.

Lemma div_shift n j : (n * bs + j) / bs = n + j / bs.
Proof. rewrite Nat.add_comm, Nat.div_add by lia. lia. Qed.
Lemma mod_shift n j : (n * bs + j) mod bs = j mod bs.
Proof. rewrite Nat.add_comm, Nat.mod_add by lia. reflexivity. Qed.
Lemma vget_shift {B} (u v : list B) k : vget (u ++ v) (length u + k) = vget v k.
Proof. unfold vget. rewrite nth_error_app2 by lia. now replace (length u + k - length u) with k by lia. Qed.
Lemma upd_shift {B} (u v : list B) k x : upd (u ++ v) (length u + k) x = u ++ upd v k x.
Proof. induction u as [|y u IH]; [reflexivity|]. cbn [app length Nat.add upd]. now rewrite IH. Qed.
Lemma vset_shift {B} (u v : list B) k x : vset (u ++ v) (length u + k) x = r <- vset v k x ;; Done (u ++ r).
Proof. unfold vset. rewrite app_length, upd_shift. replace (length u + k <? length u + length v) with (k <? length v); [now destruct (k <? length v)|]. destruct (Nat.ltb_spec k (length v)), (Nat.ltb_spec (length u + k) (length u + length v)); (reflexivity || lia). Qed.
Lemma skip_vacant depth l : forall n i, (forall j, i <= j < i + n -> nth_error l j = Some Vacant) -> sp_reset depth (seq i n) l = Done l.
Proof. induction n as [|n IH]; intros i H; cbn [seq PoolReenterSpec.sp_reset]; [reflexivity|]. unfold PoolReenterSpec.sp_wipe. rewrite (H i) by lia. cbn [bind]. apply IH. intros j Hj. apply H. lia. Qed.

Section Prefix.
Variables (pre : list (@pblock A)) (P : list (slot A)).
Hypothesis P_len : length P = length pre * bs.
Hypothesis P_dead : dead P.
Lemma at_live l ss i a : l = P ++ concat ss -> nth_error l i = Some (Live a) -> exists j, i = length pre * bs + j /\ nth_error (concat ss) j = Some (Live a) /\ (forall x, upd l i x = P ++ upd (concat ss) j x).
Proof.
  intros -> E. destruct (Nat.lt_ge_cases i (length P)) as [L|L]; [rewrite nth_error_app1 in E by assumption; now destruct (P_dead i a)|]. rewrite nth_error_app2 in E by assumption. exists (i - length P). split; [lia|]. split; [exact E|].
  intros x. replace i with (length P + (i - length P)) at 1 by lia. generalize (i - length P). intros n. clear. induction P as [|y r IH]; [reflexivity|]. cbn [app length Nat.add upd]. now rewrite IH.
Qed.
Lemma on_cell_shift bl j f p' : on_cell (MP bs bl) j f = Done p' -> on_cell (MP bs (pre ++ bl)) (length pre * bs + j) f = Done (MP bs (pre ++ m_blocks p')).
Proof.
  unfold on_cell. cbn [m_blockSize m_blocks]. rewrite div_shift, mod_shift, vget_shift. destruct (vget bl (j / bs)) as [b|]; [|discriminate]. cbn [bind]. destruct (f (memory b) (j mod bs)) as [m|]; [|discriminate]. cbn [bind]. rewrite vset_shift.
  destruct (vset bl _ _) as [r|]; [|discriminate]. cbn [bind]. intros E. injection E as <-. reflexivity.
Qed.
Lemma release_shift bl k i p' : release (MP bs bl) k i = Done p' -> release (MP bs (pre ++ bl)) (length pre + k) i = Done (MP bs (pre ++ m_blocks p')).
Proof.
  unfold release. cbn [m_blockSize m_blocks]. rewrite vget_shift. destruct (vget bl k) as [b|]; [|discriminate]. cbn [bind]. destruct (assert (0 <? occupiedEntryCount b)) as [u|]; [|discriminate]. cbn [bind].
  destruct (Set_ 64 (freeEntries b) i true) as [f|]; [|discriminate]. cbn [bind]. destruct (ResetBit 64 (occupiedEntries b) i) as [o|]; [|discriminate]. cbn [bind]. rewrite vset_shift.
  destruct (vset bl _ _) as [r|]; [|discriminate]. cbn [bind]. intros E. injection E as <-. reflexivity.
Qed.
Lemma rep_MP p ss : rep bs p ss -> p = MP bs (m_blocks p).
Proof. intros (H & _). destruct p. cbn in *. now rewrite H. Qed.

(** Destroying the object of slot [i]. *)
Lemma wipe_step p l i a : after pre P p l -> nth_error l i = Some (Live a) -> object_at p i = Done a /\ exists p', user_destroy p i = Done p' /\ after pre P p' (upd l i Deferred).
Proof.
  intros (bl & ss & -> & F & EL) N. destruct (at_live l ss i a EL N) as (j & -> & Nj & U). assert (R : rep bs (MP bs bl) ss) by (split; [reflexivity|exact F]). split.
  - destruct (rows_split bs ss j _ bs_pos (rep_rows bs _ ss R) Nj) as (s & Es & Ex). destruct (Forall2_nth _ _ _ _ _ F Es) as (b & Eb & (HL & HC & HM & _)). unfold object_at. cbn [m_blockSize m_blocks]. rewrite div_shift, mod_shift, vget_shift, (vget_some _ _ _ Eb). cbn [bind]. rewrite HM, (map_nth_error _ _ _ Ex). reflexivity.
  - destruct (user_destroy_rep bs bs_pos (MP bs bl) ss j a R Nj) as (p' & ss' & E & R' & C & _). exists (MP bs (pre ++ m_blocks p')). split; [now apply on_cell_shift|]. exists (m_blocks p'), ss'. split; [reflexivity|]. split; [apply R'|]. now rewrite U, C.
Qed.
Lemma pointer_shift p l i a : after pre P p l -> nth_error l i = Some (Live a) -> split_index p i = Done (i / bs, i mod bs) /\ exists x, GetAllocatedPointer stride p (i / bs) (i mod bs) = Done x.
Proof.
  intros (bl & ss & -> & F & EL) N. split. { unfold split_index. cbn [m_blockSize]. replace (negb (bs =? 0)) with true by (symmetry; apply Bool.negb_true_iff, Nat.eqb_neq; lia). reflexivity. }
  destruct (at_live l ss i a EL N) as (j & -> & Nj & U). assert (R : rep bs (MP bs bl) ss) by (split; [reflexivity|exact F]). pose proof (Retrieve_rep bs stride bs_pos (MP bs bl) ss j R) as E. rewrite Nj in E. cbn [held vacant negb] in E.
  unfold RetrieveFromIndex, split_index in E. cbn [m_blockSize] in E. replace (negb (bs =? 0)) with true in E by (symmetry; apply Bool.negb_true_iff, Nat.eqb_neq; lia). cbn [require bind] in E.
  eexists. rewrite div_shift, mod_shift. rewrite <- E. unfold GetAllocatedPointer. cbn [m_blocks]. rewrite app_length, vget_shift. replace (length pre + j / bs <? length pre + length bl) with (j / bs <? length bl); [reflexivity|]. destruct (Nat.ltb_spec (j / bs) (length bl)), (Nat.ltb_spec (length pre + j / bs) (length pre + length bl)); (reflexivity || lia).
Qed.
Lemma release_step p l i : after pre P p l -> length P <= i -> nth_error l i = Some Deferred -> exists p', release p (i / bs) (i mod bs) = Done p' /\ after pre P p' (upd l i Vacant).
Proof.
  intros (bl & ss & -> & F & EL) LP N. rewrite EL, nth_error_app2 in N by exact LP. set (j := i - length P) in *. assert (Ei : i = length pre * bs + j) by (subst j; lia). assert (R : rep bs (MP bs bl) ss) by (split; [reflexivity|exact F]).
  destruct (Free_nodestruction_rep bs bs_pos (MP bs bl) ss j R N) as (p' & ss' & E & R' & C & _). unfold Free_nodestruction, split_index in E. cbn [m_blockSize] in E. replace (negb (bs =? 0)) with true in E by (symmetry; apply Bool.negb_true_iff, Nat.eqb_neq; lia). cbn [require bind] in E.
  exists (MP bs (pre ++ m_blocks p')). rewrite Ei, div_shift, mod_shift. split; [now apply release_shift|]. exists (m_blocks p'), ss'. split; [reflexivity|]. split; [apply R'|]. rewrite EL, C, <- P_len. apply upd_shift.
Qed.
Lemma exec_after : forall depth cs p l l', after pre P p l -> freeing dtor l -> Forall (frees (A := A)) cs -> sp_exec depth cs l = Done l' -> exists p', exec depth cs p = Done p' /\ after pre P p' l'.
Proof.
  induction depth as [|depth IH]; [discriminate|]. cbn [PoolReenterSpec.sp_exec PoolReenterModel.exec]. induction cs as [|c cs IHc]; intros p l l' R FR FC E; cbn [sp_all each] in *; [injection E as <-; eauto|].
  inversion FC as [|? ? Fc FC']; subst. destruct (sp_one (sp_exec depth) c l) as [l1|] eqn:E1; [|discriminate]. cbn [bind] in E.
  assert (SH : shrinks l l1). { apply (exec_shrinks (S depth) [c]); [exact FR|repeat constructor; exact Fc|]. cbn [PoolReenterSpec.sp_exec sp_all]. rewrite E1. reflexivity. }
  enough (X : exists p1, exec_one (exec depth) c p = Done p1 /\ after pre P p1 l1). { destruct X as (p1 & -> & R1). cbn [bind]. apply (IHc p1 l1); auto. exact (freeing_shrinks _ _ SH FR). }
  clear E IHc. destruct c as [a at_|i]; [destruct Fc|]. cbn [PoolReenterSpec.sp_one PoolReenterModel.exec_one] in *. destruct (nth_error l i) as [[| |a]|] eqn:N; try discriminate. destruct (sp_exec depth (dtor a) (upd l i Deferred)) as [l3|] eqn:E2; [|discriminate]. injection E1 as <-.
  destruct (pointer_shift p l i a R N) as (ES & x & EG). rewrite ES. cbn [bind]. rewrite EG. cbn [bind]. destruct (wipe_step p l i a R N) as (-> & p1 & -> & R1). cbn [bind].
  destruct (IH (dtor a) p1 _ l3 R1) as (p3 & -> & R3); [|exact (FR i a N)|exact E2|].
  - apply (freeing_shrinks l); [apply shrinks_upd; discriminate|exact FR].
  - cbn [bind]. destruct (exec_keeps bs ctor dtor depth _ _ _ E2) as (_ & K). assert (N3 : nth_error l3 i = Some Deferred) by (apply K, nth_at, nth_error_Some; congruence). apply (release_step p3 l3 i R3); [|exact N3].
    destruct R as (bl & ss & -> & F & EL). destruct (at_live l ss i a EL N) as (j & -> & _). lia.
Qed.

(** The inner loop of Reset. *)
Lemma entries_after : forall fuel depth p b bl s ss l l' from, p = MP bs (pre ++ b :: bl) -> blk bs b s -> Forall2 (blk bs) bl ss -> l = P ++ s ++ concat ss -> freeing dtor l -> bs - from <= fuel ->
  sp_reset depth (seq (length pre * bs + from) (bs - from)) l = Done l' ->
  exists p', reset_entries stride ctor dtor fuel depth (length pre) (length (pre ++ b :: bl)) (s_find (map held s) from) p = Done p' /\ after pre P p' l'.
Proof.
  induction fuel as [|fuel IH]; intros depth p b bl s ss l l' from Ep Hb F EL FR Hf E.
  - replace (s_find (map held s) from) with (@None nat). 2:{ symmetry. apply (s_find_none 64). intros j Hj. apply sbit_high. rewrite map_length. destruct Hb as (HL & _). lia. }
    replace (bs - from) with 0 in E by lia. cbn in E. injection E as <-. exists p. split; [reflexivity|]. exists (b :: bl), (s :: ss). split; [exact Ep|]. split; [constructor; assumption|exact EL].
  - pose proof Hb as (HL & HC & HM & HF & HO). pose proof (s_find_spec 64 (map held s) from) as SF.
    assert (VAC : forall j, j < bs -> sbit (map held s) j = false -> nth_error l (length pre * bs + j) = Some Vacant).
    { intros j Hj B. rewrite EL, nth_error_app2 by lia. replace (length pre * bs + j - length P) with j by lia. rewrite nth_error_app1 by lia. unfold sbit in B. change false with (held (@Vacant A)) in B at 1. rewrite map_nth in B.
      destruct (nth_error s j) as [x|] eqn:X; [|apply nth_error_None in X; lia]. rewrite (nth_error_nth _ _ _ X) in B. destruct x; try discriminate; reflexivity. }
    destruct (s_find (map held s) from) as [q|].
    + rewrite map_length, HL in SF. destruct SF as (Hq & Bq & Bl). replace (bs - from) with ((q - from) + S (bs - (q + 1))) in E by lia. rewrite seq_app, reset_app in E. rewrite skip_vacant in E. 2:{ intros j Hj. replace j with (length pre * bs + (j - length pre * bs)) by lia. apply VAC; [lia|]. apply Bl. lia. }
      cbn [bind seq PoolReenterSpec.sp_reset] in E. replace (length pre * bs + from + (q - from)) with (length pre * bs + q) in E by lia.
      assert (AF : after pre P p l). { exists (b :: bl), (s :: ss). split; [exact Ep|]. split; [constructor; assumption|exact EL]. }
      unfold PoolReenterSpec.sp_wipe in E. destruct (nth_error l (length pre * bs + q)) as [[| |a]|] eqn:N; cbn [bind] in E; try discriminate.
      * exfalso. rewrite EL, nth_error_app2 in N by lia. replace (length pre * bs + q - length P) with q in N by lia. rewrite nth_error_app1 in N by lia. unfold sbit in Bq. rewrite (nth_error_nth _ _ _ (map_nth_error held _ _ N)) in Bq. discriminate.
      * destruct (sp_exec depth (dtor a) (upd l (length pre * bs + q) Deferred)) as [l1|] eqn:E1; [|discriminate]. cbn [bind] in E.
        cbn [reset_entries]. assert (m_blockSize p = bs) as -> by (rewrite Ep; reflexivity). destruct (wipe_step p l _ a AF N) as (-> & p1 & -> & A1). cbn [bind]. set (i := length pre * bs + q) in *.
        assert (FR1 : freeing dtor (upd l i Deferred)) by (apply (freeing_shrinks l); [apply shrinks_upd; discriminate|exact FR]).
        destruct (exec_after depth (dtor a) p1 _ l1 A1 FR1 (FR i a N) E1) as (p2 & -> & A2). cbn [bind].
        pose proof (exec_shrinks depth (dtor a) _ _ FR1 (FR i a N) E1) as SH. pose proof SH as (LN & _). rewrite upd_length in LN.
        destruct A2 as (bl2 & ss2 & Ep2 & F2 & EL2). pose proof (rep_rows bs (MP bs bl2) ss2 (conj eq_refl F2)) as RW2. assert (RW1 : rows bs (s :: ss)) by (apply (rep_rows bs (MP bs (b :: bl))); split; [reflexivity|constructor; assumption]).
        assert (LS : length ss2 = S (length ss)). { rewrite EL2, EL, !app_length, (rows_length bs ss2 RW2) in LN. change (s ++ concat ss) with (concat (s :: ss)) in LN. pose proof (rows_length bs (s :: ss) RW1) as Q. cbn [concat length] in Q. rewrite app_length in Q. nia. }
        destruct ss2 as [|s2 ss2]; [discriminate|]. inversion F2 as [|b2 ? bl2' ? Hb2 F2']; subst bl2. cbn [length] in LS. assert (LB : length bl2' = length bl) by (rewrite (Forall2_len _ _ _ F2'), (Forall2_len _ _ _ F); congruence).
        rewrite Ep2. cbn [m_blocks]. replace (length (pre ++ b2 :: bl2') =? length (pre ++ b :: bl)) with true by (symmetry; apply Nat.eqb_eq; rewrite !app_length; cbn [length]; lia). cbn [require bind].
        replace (vget (pre ++ b2 :: bl2') (length pre)) with (Done b2) by (pose proof (vget_shift pre (b2 :: bl2') 0) as V; rewrite Nat.add_0_r in V; rewrite V; reflexivity). cbn [bind].
        pose proof Hb2 as (HL2 & _ & _ & _ & HO2). rewrite (FindNext_repr 64 _ _ q HO2), map_length, HL2. replace (q <? bs) with true by (symmetry; apply Nat.ltb_lt; lia). cbn [bind].
        replace (length (pre ++ b :: bl)) with (length (pre ++ b2 :: bl2')) by (rewrite !app_length; cbn [length]; lia).
        apply (IH depth (MP bs (pre ++ b2 :: bl2')) b2 bl2' s2 ss2 l1 l' (q + 1)); auto; [|lia|].
        -- apply (freeing_shrinks _ _ SH FR1).
        -- replace (length pre * bs + (q + 1)) with (S i) by (subst i; lia). exact E.
      * exfalso. apply nth_error_None in N. rewrite EL, !app_length in N. lia.
    + rewrite skip_vacant in E. 2:{ intros j Hj. replace j with (length pre * bs + (j - length pre * bs)) by lia. apply VAC; [lia|]. apply SF. lia. }
      injection E as <-. exists p. split; [reflexivity|]. exists (b :: bl), (s :: ss). split; [exact Ep|]. split; [constructor; assumption|exact EL].
Qed.
End Prefix.

Lemma dead_raw (s : list (slot A)) : dead s -> map cell_of s = repeat Raw (length s).
Proof. induction s as [|x s IH]; intros H; [reflexivity|]. cbn [map length repeat]. rewrite IH by (intros j a; exact (H (S j) a)). destruct x as [| |a]; [reflexivity..|]. now destruct (H 0 a). Qed.
Lemma reset_from_after (two : 2 <= bs) depth : forall m fuel pre P p l l', length P = length pre * bs -> dead P -> all_raw bs pre -> after pre P p l -> freeing dtor l -> length l = (length pre + m) * bs -> m <= fuel -> sp_reset depth (seq (length pre * bs) (m * bs)) l = Done l' ->
  exists p', reset_from stride ctor dtor fuel depth (length pre) p = Done p' /\ m_blockSize p' = bs /\ all_raw bs (m_blocks p') /\ length (m_blocks p') = length pre + m.
Proof.
  induction m as [|m IH]; intros fuel pre P p l l' PL PD PR (bl & ss & -> & F & EL) FR LL Hf E.
  - pose proof (rep_rows bs (MP bs bl) ss (conj eq_refl F)) as RW. rewrite EL, app_length, (rows_length bs ss RW), PL in LL. assert (length ss = 0) by nia. destruct ss; [|discriminate]. inversion F; subst. exists (MP bs (pre ++ [])).
    rewrite app_nil_r. replace (reset_from stride ctor dtor fuel depth (length pre) (MP bs pre)) with (Done (MP bs pre)). 2:{ destruct fuel; cbn [reset_from m_blocks]; rewrite (Nat.ltb_irrefl (length pre)); reflexivity. }
    cbn [m_blocks m_blockSize]. repeat split; auto; lia.
  - pose proof (rep_rows bs (MP bs bl) ss (conj eq_refl F)) as RW. assert (LS : length ss = S m). { rewrite EL, app_length, (rows_length bs ss RW), PL in LL. nia. } destruct ss as [|s ss]; [discriminate|]. cbn [length] in LS. inversion F as [|b ? bl' ? Hb F']; subst bl. cbn [concat] in EL.
    destruct fuel as [|fuel]; [lia|]. cbn [reset_from]. cbn [m_blocks]. replace (length pre <? length (pre ++ b :: bl')) with true by (symmetry; apply Nat.ltb_lt; rewrite app_length; cbn [length]; lia).
    replace (S m * bs) with (bs + m * bs) in E by lia. rewrite seq_app, reset_app in E. destruct (sp_reset depth (seq (length pre * bs) bs) l) as [l1|] eqn:E1; [|discriminate]. cbn [bind] in E.
    destruct (reset_shrinks depth _ _ _ FR E1) as (SH & DEAD).
    assert (X : exists p1 b1 bl1 s1 ss1, reset_at stride ctor dtor depth (length pre) (MP bs (pre ++ b :: bl')) = Done p1 /\ p1 = MP bs ((pre ++ [b1]) ++ bl1) /\ memory b1 = map cell_of s1 /\ length s1 = bs /\ Forall2 (blk bs) bl1 ss1 /\ l1 = (P ++ s1) ++ concat ss1).
    { assert (VG : forall c cl, vget (pre ++ c :: cl) (length pre) = Done c) by (intros c cl; pose proof (vget_shift pre (c :: cl) 0) as V; rewrite Nat.add_0_r in V; rewrite V; reflexivity).
      unfold reset_at. cbn [m_blocks m_blockSize]. rewrite VG. cbn [bind]. pose proof Hb as (HL & HC & HM & HF & HO). rewrite HC. destruct (Nat.eqb_spec (sp_count s) 0) as [Z|NZ].
      - assert (l1 = l). { rewrite skip_vacant in E1; [now injection E1|]. intros j Hj. rewrite EL, nth_error_app2 by lia. rewrite nth_error_app1 by lia. rewrite (count_zero s Z). apply nth_error_repeat. lia. }
        subst l1. eexists _, b, bl', s, ss. split; [reflexivity|]. split; [now rewrite <- app_assoc|]. repeat (split; [assumption|]). rewrite EL. now rewrite app_assoc.
      - rewrite (FindFirst_repr 64 _ _ HO). destruct (entries_after pre P PL PD bs depth (MP bs (pre ++ b :: bl')) b bl' s ss l l1 0 eq_refl Hb F' EL FR) as (p1 & -> & (bl1 & ss1 & -> & F1 & EL1)); [lia|rewrite Nat.add_0_r, Nat.sub_0_r; exact E1|]. cbn [bind m_blocks m_blockSize].
        pose proof (rep_rows bs (MP bs bl1) ss1 (conj eq_refl F1)) as RW1. assert (LS1 : length ss1 = S m). { destruct SH as (SH & _). rewrite LL, EL1, app_length, (rows_length bs ss1 RW1), PL in SH. nia. }
        destruct ss1 as [|s1 ss1]; [discriminate|]. inversion F1 as [|b1 ? bl1' ? Hb1 F1']; subst bl1. rewrite VG. cbn [bind]. pose proof Hb1 as (HL1 & HC1 & HM1 & HF1 & HO1). unfold ResetBit.
        destruct (Set_done 64 _ _ 1 false HF1) as (f & -> & Rf); [rewrite map_length; lia|]. cbn [bind]. destruct (Set_done 64 _ _ 0 false HO1) as (o & -> & Ro); [rewrite map_length; lia|]. cbn [bind].
        pose proof (vset_shift pre (b1 :: bl1') 0 (PB (base b1) 0 (memory b1) f o)) as V. rewrite Nat.add_0_r in V. rewrite V. unfold vset. cbn [length Nat.ltb Nat.leb upd bind].
        eexists _, (PB (base b1) 0 (memory b1) f o), bl1', s1, ss1. split; [reflexivity|]. split; [now rewrite <- app_assoc|]. cbn [memory]. repeat (split; [assumption|]). rewrite EL1. cbn [concat]. now rewrite app_assoc. }
    destruct X as (p1 & b1 & bl1 & s1 & ss1 & -> & Ep1 & M1 & L1 & F1 & EL1). cbn [bind].
    assert (D1 : dead s1). { intros j a Hj. assert (Lj : j < length s1) by (apply nth_error_Some; congruence). apply (DEAD (length pre * bs + j) a); [apply in_seq; lia|]. rewrite EL1, <- app_assoc, nth_error_app2 by lia. rewrite nth_error_app1 by lia. replace (length pre * bs + j - length P) with j by lia. exact Hj. }
    assert (D2 : dead (P ++ s1)). { intros j a Hj. destruct (Nat.lt_ge_cases j (length P)) as [L|L]; [rewrite nth_error_app1 in Hj by assumption; exact (PD j a Hj)|]. rewrite nth_error_app2 in Hj by assumption. exact (D1 _ _ Hj). }
    destruct (IH fuel (pre ++ [b1]) (P ++ s1) p1 l1 l') as (p' & E' & B' & R' & LN'); auto.
    + rewrite !app_length. cbn [length]. lia.
    + apply Forall_app. split; [exact PR|]. constructor; [|constructor]. rewrite M1, (dead_raw s1 D1), L1. reflexivity.
    + exists bl1, ss1. auto.
    + exact (freeing_shrinks _ _ SH FR).
    + destruct SH as (-> & _). rewrite LL, app_length. cbn [length]. lia.
    + lia.
    + rewrite app_length. cbn [length]. replace ((length pre + 1) * bs) with (length pre * bs + bs) by lia. exact E.
    + exists p'. rewrite app_length in E', LN'. cbn [length] in E', LN'. split; [exact E'|]. split; [exact B'|]. split; [exact R'|]. lia.
Qed.
Lemma clear_sim (two : 2 <= bs) depth fuel p l l' : reached p l -> freeing dtor l -> length (m_blocks p) <= fuel -> sp_reset depth (seq 0 (length l)) l = Done l' ->
  exists dropped, reenter_clear stride ctor dtor fuel depth p = Done (MP bs [], dropped) /\ reenter_destroy stride ctor dtor fuel depth p = Done dropped /\ all_raw bs dropped /\ length dropped = length (m_blocks p).
Proof.
  intros R FR Hf E. destruct (reached_rep stride bs bs_pos p l R) as (ss & RP & <-). pose proof (rep_rows bs p ss RP) as RW. pose proof RP as (HB & F). pose proof (Forall2_len _ _ _ F) as LN.
  destruct (reset_from_after two depth (length ss) fuel [] [] p (concat ss) l') as (p' & E' & B' & R' & L'); auto.
  - intros [|j] a; discriminate.
  - constructor.
  - exists (m_blocks p), ss. split; [destruct p; cbn in *; now rewrite HB|]. split; [exact F|reflexivity].
  - rewrite (rows_length bs ss RW). reflexivity.
  - lia.
  - cbn [length Nat.mul]. rewrite <- (rows_length bs ss RW). exact E.
  - cbn [length Nat.add] in *. exists (m_blocks p'). unfold reenter_clear, reenter_destroy. rewrite E'. cbn [bind]. rewrite B'. repeat (split; [reflexivity || assumption|]). congruence.
Qed.
End Sim.
