(** Proofs for VectorReenterModel.v: it does what the specification says, faults included. *)
From Verif Require Import Base VectorReenterModel VectorReenterSpec.
From Coq Require Import Lia.
Open Scope nat_scope.

Lemma nth_app_mid {A} (l : list A) x k : nth_error (l ++ [x]) k = if k <? length l then nth_error l k else if k =? length l then Some x else None.
Proof.
  destruct (Nat.ltb_spec k (length l)); [now apply nth_error_app1|]. rewrite nth_error_app2 by assumption.
  destruct (Nat.eqb_spec k (length l)) as [->|]; [now rewrite Nat.sub_diag|]. now destruct (k - length l) as [|[|]] eqn:E; try lia.
Qed.
Lemma removelast_len {A} (l : list A) : length (removelast l) = length l - 1.
Proof. destruct l as [|x l]; [reflexivity|]. rewrite (app_removelast_last x (l := x :: l)) at 2 by discriminate. rewrite app_length. cbn [length]. lia. Qed.
Lemma nth_removelast {A} (l : list A) k : k < length l - 1 -> nth_error (removelast l) k = nth_error l k.
Proof.
  destruct l as [|x l]; [cbn; lia|]. intros H. rewrite (app_removelast_last x (l := x :: l)) at 2 by discriminate. rewrite nth_error_app1; [reflexivity|].
  now rewrite removelast_len.
Qed.
Lemma nth_some {A} (l : list A) k x : nth_error l k = Some x -> k < length l.
Proof. intros H. apply nth_error_Some. now rewrite H. Qed.

Section Proofs.
Context {A : Type}.
Variables (cap : nat) (ctor dtor : A -> list (vcall A)).
Notation sp_exec := (sp_exec cap ctor dtor).
Notation vexec := (vexec ctor dtor).
Notation lst := (list (cell A)).

Definition dead (c : cell A) : Prop := match c with Live _ => False | _ => True end.

(** *** Elements that are not alive stay as they are *)
Definition stays (f : lst -> outcome lst) : Prop := forall l l' j c, f l = Done l' -> nth_error l j = Some c -> dead c -> nth_error l' j = Some c.
Lemma clear_stays rec (HR : forall lim cs, stays (rec lim cs)) lim : forall fuel i l l' j c, i <= j -> nth_error l j = Some c -> dead c -> sp_clear dtor rec fuel lim i l <> Done l'.
Proof.
  induction fuel as [|fuel IH]; intros i l l' j c H N D; cbn [sp_clear]; pose proof (nth_some _ _ _ N) as LJ;
    replace (i <? length l) with true by (symmetry; apply Nat.ltb_lt; lia); [discriminate|].
  destruct (nth_error l i) as [[| |a]|] eqn:NI; try discriminate. destruct (rec lim (dtor a) (upd l i Busy)) as [l1|] eqn:E; [|discriminate]. cbn [bind].
  assert (i <> j) by (intros ->; rewrite NI in N; injection N as <-; exact D).
  apply (IH (i + 1) _ l' j c); [lia| |exact D]. rewrite nth_error_upd. replace (j =? i) with false by (symmetry; apply Nat.eqb_neq; lia). cbn [andb].
  apply (HR lim (dtor a) _ _ _ _ E); [|exact D]. rewrite nth_error_upd. replace (j =? i) with false by (symmetry; apply Nat.eqb_neq; lia). exact N.
Qed.
Lemma one_stays rec (HR : forall lim cs, stays (rec lim cs)) lim c : stays (sp_one cap ctor dtor rec lim c).
Proof.
  intros l l' j x E N D. pose proof (nth_some _ _ _ N) as LJ. destruct c as [a| |i| |n a]; cbn [sp_one] in E.
  - destruct (length l <? lim); [|destruct (lim <? cap); discriminate]. destruct (rec lim (ctor a) (l ++ [Busy])) as [l1|] eqn:E1; [|discriminate]. cbn [bind] in E. injection E as <-.
    rewrite nth_error_upd. replace (j =? length l) with false by (symmetry; apply Nat.eqb_neq; lia). cbn [andb]. apply (HR _ _ _ _ _ _ E1); [|exact D].
    rewrite nth_app_mid. now replace (j <? length l) with true by (symmetry; apply Nat.ltb_lt; lia).
  - destruct (nth_error l (length l - 1)) as [[| |a]|] eqn:NL; try discriminate. assert (j <> length l - 1) by (intros ->; rewrite NL in N; injection N as <-; exact D).
    apply (HR _ _ _ _ _ _ E); [|exact D]. rewrite nth_removelast by lia. exact N.
  - destruct (nth_error l i) as [[| |]|]; try discriminate. now injection E as <-.
  - exfalso. exact (clear_stays rec HR lim cap 0 l l' j x (Nat.le_0_l _) N D E).
  - discriminate.
Qed.
Lemma exec_stays : forall depth lim cs, stays (sp_exec depth lim cs).
Proof.
  induction depth as [|depth IH]; intros lim cs l l' j c E N D; [discriminate|]. cbn [VectorReenterSpec.sp_exec] in E. revert l E N. induction cs as [|x cs IHc]; intros l E N; cbn [sp_all] in E; [now injection E as <-|].
  destruct (sp_one cap ctor dtor (sp_exec depth) lim x l) as [l1|] eqn:E1; [|discriminate]. cbn [bind] in E. apply (IHc l1 E). exact (one_stays _ IH lim x l l1 j c E1 N D).
Qed.

(** *** The memory *)
Record R (lim : nat) (s : vs A) (l : lst) : Prop := {
  r_cap : length (cells s) = cap; r_size : m_size s = length l; r_lim : length l <= lim; r_lc : lim <= cap;
  r_in : forall i, i < length l -> nth_error (cells s) i = nth_error l i;
  r_raw : forall i, length l <= i < lim -> nth_error (cells s) i = Some Raw;
  r_busy : lim < cap -> nth_error (cells s) lim = Some Busy }.
Definition frame (lim : nat) (s s' : vs A) : Prop := forall i, lim <= i -> nth_error (cells s') i = nth_error (cells s) i.
Lemma frame_refl lim s : frame lim s s. Proof. intros i _. reflexivity. Qed.
Lemma frame_trans lim s t u : frame lim s t -> frame lim t u -> frame lim s u.
Proof. intros H K i L. now rewrite K, H. Qed.

(** What the model does, given what the specification says. *)
Definition follows (lim : nat) (s : vs A) (sp : outcome lst) (m : outcome (vs A)) : Prop :=
  match sp with Done l' => exists s', m = Done s' /\ R lim s' l' /\ frame lim s s' | Fault f => m = Fault f end.

(** Changing an element of the list. *)
Lemma R_upd lim s l i c : R lim s l -> i < length l -> R lim (VS (upd (cells s) i c) (m_size s)) (upd l i c) /\ frame lim s (VS (upd (cells s) i c) (m_size s)).
Proof.
  intros [H1 H2 H3 H4 H5 H6 H7] L. split; [split; cbn [cells m_size]; rewrite ?upd_length; auto|].
  - intros k K. rewrite !nth_error_upd, (H5 k K), H1. replace (i <? cap) with true by (symmetry; apply Nat.ltb_lt; lia). now replace (i <? length l) with true by (symmetry; apply Nat.ltb_lt; lia).
  - intros k K. rewrite nth_error_upd. replace (k =? i) with false by (symmetry; apply Nat.eqb_neq; lia). now apply H6.
  - intros K. rewrite nth_error_upd. replace (lim =? i) with false by (symmetry; apply Nat.eqb_neq; lia). now apply H7.
  - intros k K. cbn [cells]. rewrite nth_error_upd. now replace (k =? i) with false by (symmetry; apply Nat.eqb_neq; lia).
Qed.

Section Step.
  Variable depth : nat.
  Hypothesis IH : forall lim cs s l, (Forall no_resize cs) -> R lim s l -> follows lim s (sp_exec depth lim cs l) (vexec depth cs s).
  Hypothesis HC : forall a, Forall no_resize (ctor a).
  Hypothesis HD : forall a, Forall no_resize (dtor a).

  Lemma push_follows lim s l a : R lim s l -> follows lim s (sp_one cap ctor dtor (sp_exec depth) lim (VPush a) l) (vexec_one ctor dtor (vexec depth) (VPush a) s).
  Proof.
    intros H. pose proof H as [H1 H2 H3 H4 H5 H6 H7]. cbn [sp_one vexec_one]. rewrite H1, H2.
    destruct (Nat.ltb_spec (length l) lim) as [L|L].
    - replace (length l <? cap) with true by (symmetry; apply Nat.ltb_lt; lia). cbn [assert bind]. unfold construct_at, vget. cbn [cells m_size]. rewrite H6 by lia. cbn [bind].
      set (s1 := VS (upd (cells s) (length l) Busy) (length l + 1)).
      assert (R1 : R lim s1 (l ++ [Busy])).
      { split; cbn [s1 cells m_size]; rewrite ?upd_length, ?app_length; cbn [length]; try lia.
        - intros k K. rewrite nth_error_upd, nth_app_mid, H1. replace (length l <? cap) with true by (symmetry; apply Nat.ltb_lt; lia). rewrite andb_true_r.
          destruct (Nat.eqb_spec k (length l)) as [->|]; [now rewrite Nat.ltb_irrefl|]. replace (k <? length l) with true by (symmetry; apply Nat.ltb_lt; lia). apply H5. lia.
        - intros k K. rewrite nth_error_upd. replace (k =? length l) with false by (symmetry; apply Nat.eqb_neq; lia). apply H6. lia.
        - intros K. rewrite nth_error_upd. replace (lim =? length l) with false by (symmetry; apply Nat.eqb_neq; lia). now apply H7. }
      assert (F1 : frame lim s s1).
      { intros k K. cbn [s1 cells]. rewrite nth_error_upd. now replace (k =? length l) with false by (symmetry; apply Nat.eqb_neq; lia). }
      pose proof (IH lim (ctor a) s1 _ (HC a) R1) as X. unfold follows in X |- *. destruct (sp_exec depth lim (ctor a) (l ++ [Busy])) as [l2|f] eqn:E2; cbn [bind]; [|now rewrite X].
      destruct X as (s2 & -> & R2 & F2). cbn [bind]. assert (B : nth_error l2 (length l) = Some Busy).
      { apply (exec_stays _ _ _ _ _ _ _ E2); [|exact Logic.I]. rewrite nth_app_mid, Nat.ltb_irrefl. now rewrite Nat.eqb_refl. }
      apply nth_some in B. destruct (R_upd lim s2 l2 (length l) (Live a) R2 B) as (R3 & F3). eexists. split; [reflexivity|]. split; [exact R3|].
      exact (frame_trans _ _ _ _ F1 (frame_trans _ _ _ _ F2 F3)).
    - assert (length l = lim) by lia. destruct (Nat.ltb_spec lim cap) as [K|K].
      + replace (length l <? cap) with true by (symmetry; apply Nat.ltb_lt; lia). cbn [assert bind]. unfold construct_at, vget. cbn [cells m_size follows]. replace (length l) with lim by lia. now rewrite (H7 K).
      + replace (length l <? cap) with false by (symmetry; apply Nat.ltb_ge; lia). reflexivity.
  Qed.

  Lemma pop_follows lim s l : R lim s l -> follows lim s (sp_one cap ctor dtor (sp_exec depth) lim VPop l) (vexec_one ctor dtor (vexec depth) VPop s).
  Proof.
    intros H. pose proof H as [H1 H2 H3 H4 H5 H6 H7]. cbn [sp_one vexec_one]. rewrite H2. destruct (Nat.eqb_spec (length l) 0) as [Z|Z].
    { assert (l = []) as -> by (destruct l; [reflexivity|discriminate]). reflexivity. }
    cbn [negb assert bind]. unfold destroy_at, vget. cbn [cells m_size]. rewrite H5 by lia. destruct (nth_error l (length l - 1)) as [[| |a]|] eqn:N; cbn [bind follows]; try reflexivity; [|now apply nth_error_None in N; lia].
    set (k := length l - 1). set (s1 := VS (upd (cells s) k Busy) k). assert (K : k < cap) by lia.
    assert (R1 : R k s1 (removelast l)).
    { split; cbn [s1 cells m_size]; rewrite ?upd_length, ?removelast_len; try lia.
      - intros i I. rewrite nth_error_upd. replace (i =? k) with false by (symmetry; apply Nat.eqb_neq; lia). cbn [andb]. rewrite nth_removelast by lia. apply H5. lia.
      - intros _. rewrite nth_error_upd, Nat.eqb_refl, H1. now replace (k <? cap) with true by (symmetry; apply Nat.ltb_lt; lia). }
    pose proof (IH k (dtor a) s1 _ (HD a) R1) as X. unfold follows in X. destruct (sp_exec depth k (dtor a) (removelast l)) as [l2|f]; [|now rewrite X].
    destruct X as (s2 & -> & [G1 G2 G3 G4 G5 G6 G7] & F2). cbn [bind]. eexists. split; [reflexivity|]. split.
    - split; cbn [cells m_size]; rewrite ?upd_length; try lia.
      + intros i I. rewrite nth_error_upd. replace (i =? k) with false by (symmetry; apply Nat.eqb_neq; lia). now apply G5.
      + intros i I. rewrite nth_error_upd, G1. destruct (Nat.eqb_spec i k) as [->|NE]; [now replace (k <? cap) with true by (symmetry; apply Nat.ltb_lt; lia)|]. cbn [andb].
        destruct (Nat.lt_ge_cases i k); [apply G6; lia|]. rewrite F2 by lia. cbn [s1 cells]. rewrite nth_error_upd. replace (i =? k) with false by (symmetry; apply Nat.eqb_neq; lia). apply H6. lia.
      + intros I. rewrite nth_error_upd. replace (lim =? k) with false by (symmetry; apply Nat.eqb_neq; lia). cbn [andb]. rewrite F2 by lia. cbn [s1 cells]. rewrite nth_error_upd.
        replace (lim =? k) with false by (symmetry; apply Nat.eqb_neq; lia). now apply H7.
    - intros i I. cbn [cells]. rewrite nth_error_upd. replace (i =? k) with false by (symmetry; apply Nat.eqb_neq; lia). cbn [andb]. rewrite F2 by lia. cbn [s1 cells]. rewrite nth_error_upd.
      now replace (i =? k) with false by (symmetry; apply Nat.eqb_neq; lia).
  Qed.

  Lemma clear_follows lim : forall fuel i s l, R lim s l -> (forall j, j < i -> j < length l -> nth_error l j = Some Raw) ->
    match sp_clear dtor (sp_exec depth) fuel lim i l with
    | Done l' => l' = [] /\ exists s' l1, destroy_from dtor (vexec depth) fuel i s = Done s' /\ R lim s' l1 /\ frame lim s s' /\ forall j, j < length l1 -> nth_error l1 j = Some Raw
    | Fault f => destroy_from dtor (vexec depth) fuel i s = Fault f
    end.
  Proof.
    induction fuel as [|fuel IHf]; intros i s l H W; cbn [sp_clear destroy_from]; rewrite (r_size _ _ _ H).
    - destruct (Nat.ltb_spec i (length l)); [reflexivity|]. split; [reflexivity|]. exists s, l. repeat split; auto using frame_refl; try apply H. intros j J. apply W; lia.
    - destruct (Nat.ltb_spec i (length l)) as [L|L].
      2:{ split; [reflexivity|]. exists s, l. repeat split; auto using frame_refl; try apply H. intros j J. apply W; lia. }
      unfold destroy_at, vget. rewrite (r_in _ _ _ H i L). destruct (nth_error l i) as [[| |a]|] eqn:N; cbn [bind]; try reflexivity.
      destruct (R_upd lim s l i Busy H L) as (R1 & F1). rewrite (r_size _ _ _ H) in R1, F1. rewrite (r_size _ _ _ H).
      pose proof (IH lim (dtor a) _ _ (HD a) R1) as X. unfold follows in X. destruct (sp_exec depth lim (dtor a) (upd l i Busy)) as [l2|f] eqn:E2; [|cbn [bind]; now rewrite X].
      destruct X as (s2 & -> & R2 & F2). cbn [bind].
      assert (B : nth_error l2 i = Some Busy).
      { apply (exec_stays _ _ _ _ _ _ _ E2); [|exact Logic.I]. rewrite nth_error_upd, Nat.eqb_refl. now replace (i <? length l) with true by (symmetry; apply Nat.ltb_lt; lia). }
      apply nth_some in B. destruct (R_upd lim s2 l2 i Raw R2 B) as (R3 & F3).
      assert (W3 : forall j, j < i + 1 -> j < length (upd l2 i Raw) -> nth_error (upd l2 i Raw) j = Some Raw).
      { intros j J K. rewrite upd_length in K. rewrite nth_error_upd. destruct (Nat.eqb_spec j i) as [->|NE]; [now replace (i <? length l2) with true by (symmetry; apply Nat.ltb_lt; lia)|]. cbn [andb].
        apply (exec_stays _ _ _ _ _ _ _ E2); [|exact Logic.I]. rewrite nth_error_upd. replace (j =? i) with false by (symmetry; apply Nat.eqb_neq; lia). apply W; lia. }
      pose proof (IHf (i + 1) _ _ R3 W3) as Y. destruct (sp_clear dtor (sp_exec depth) fuel lim (i + 1) (upd l2 i Raw)) as [l'|f]; [|exact Y].
      destruct Y as (-> & s' & l1 & E & R4 & F4 & W4). split; [reflexivity|]. exists s', l1. split; [exact E|]. split; [exact R4|]. split; [|exact W4].
      exact (frame_trans _ _ _ _ F1 (frame_trans _ _ _ _ F2 (frame_trans _ _ _ _ F3 F4))).
  Qed.

  Lemma one_follows lim s l c : no_resize c -> R lim s l -> follows lim s (sp_one cap ctor dtor (sp_exec depth) lim c l) (vexec_one ctor dtor (vexec depth) c s).
  Proof.
    intros NR H. destruct c as [a| |i| |n a]; [now apply push_follows|now apply pop_follows| | |destruct NR].
    - pose proof H as [H1 H2 H3 H4 H5 H6 H7]. cbn [sp_one vexec_one]. rewrite H2. destruct (Nat.ltb_spec i (length l)) as [L|L]; cbn [assert bind].
      + unfold vget. rewrite (H5 i L). destruct (nth_error l i) as [[| |a]|] eqn:N; cbn [bind follows]; try reflexivity; [|now apply nth_error_None in N; lia]. exists s. auto using frame_refl.
      + rewrite (proj2 (nth_error_None l i) L). reflexivity.
    - cbn [sp_one vexec_one]. rewrite (r_cap _ _ _ H). pose proof (clear_follows lim cap 0 s l H ltac:(intros; lia)) as X. unfold follows.
      destruct (sp_clear dtor (sp_exec depth) cap lim 0 l) as [l'|f]; [|now rewrite X]. destruct X as (-> & s' & l1 & -> & [G1 G2 G3 G4 G5 G6 G7] & F & W). cbn [bind]. eexists. split; [reflexivity|]. split; [|exact F].
      split; cbn [cells m_size length]; auto; try lia. intros k K. destruct (Nat.lt_ge_cases k (length l1)); [rewrite G5 by assumption; now apply W|apply G6; lia].
  Qed.
End Step.

Lemma exec_follows : (forall a, Forall no_resize (ctor a)) -> (forall a, Forall no_resize (dtor a)) -> forall depth lim cs s l, Forall no_resize cs -> R lim s l -> follows lim s (sp_exec depth lim cs l) (vexec depth cs s).
Proof.
  intros HC HD. induction depth as [|depth IH]; intros lim cs s l F H; [reflexivity|]. cbn [VectorReenterSpec.sp_exec VectorReenterModel.vexec]. revert s l F H. induction cs as [|c cs IHc]; intros s l F H; cbn [sp_all vexec_all].
  - exists s. auto using frame_refl.
  - inversion F as [|? ? F1 F2]; subst. pose proof (one_follows depth IH HC HD lim s l c F1 H) as X. unfold follows in X. destruct (sp_one cap ctor dtor (sp_exec depth) lim c l) as [l1|f]; cbn [bind]; [|now rewrite X].
    destruct X as (s1 & -> & R1 & G1). cbn [bind]. pose proof (IHc s1 l1 F2 R1) as Y. unfold follows in Y |- *. destruct (sp_all cap ctor dtor (sp_exec depth) lim cs l1) as [l2|f]; [|exact Y].
    destruct Y as (s2 & E & R2 & G2). exists s2. split; [exact E|]. split; [exact R2|]. exact (frame_trans _ _ _ _ G1 G2).
Qed.

(** *** Vectors at rest *)
Lemma holds_R s l : holds cap s l -> R cap s (map Live l).
Proof.
  intros (L & ->). assert (LM : length (map (@Live A) l) = length l) by apply map_length. split; cbn [cells m_size]; rewrite ?LM; auto; try lia.
  - rewrite app_length, repeat_length. lia.
  - intros i I. now rewrite nth_error_app1 by lia.
  - intros i I. rewrite nth_error_app2 by lia. rewrite LM. now apply nth_error_repeat; lia.
Qed.
Lemma R_holds s l : R cap s (map Live l) -> holds cap s l.
Proof.
  intros [H1 H2 H3 H4 H5 H6 H7]. rewrite map_length in *. split; [lia|]. destruct s as [c n]. cbn [cells m_size] in *. subst n. f_equal.
  apply nth_ext with (d := Raw) (d' := Raw); [rewrite app_length, map_length, repeat_length; lia|]. intros i I.
  assert (E : nth_error c i = nth_error (map Live l ++ repeat Raw (cap - length l)) i); [|apply nth_error_nth' with (d := Raw) in I; rewrite I in E; symmetry in E; now rewrite (nth_error_nth _ _ Raw E)].
  destruct (Nat.lt_ge_cases i (length l)); [rewrite nth_error_app1 by (rewrite map_length; lia); now apply H5|].
  rewrite nth_error_app2 by (rewrite map_length; lia). rewrite map_length, nth_error_repeat by lia. apply H6. lia.
Qed.
End Proofs.
