(** Lemmas for C137. *)
From Verif Require Import Base CellProofs BitsetSpec BitsetBits BitsetProofs BitsetFind PoolModel PoolProofs PoolHistory PoolReset PropPool VisitProofs PoolReenterModel PoolReenterSpec.
Open Scope nat_scope.

(** *** The slots *)
Section Spec.
Context {A : Type}.
Variables (bs : nat) (ctor dtor : A -> list (call A)).
Notation sp_exec := (sp_exec bs ctor dtor).
Notation sp_one := (sp_one bs ctor dtor).
Notation tree := (tree dtor).
Notation trees := (trees dtor).
Implicit Types (l : list (slot A)).

Lemma nth_at l i x : i < length l -> nth_error (upd l i x) i = Some x.
Proof. intros L. rewrite nth_error_upd, Nat.eqb_refl, (proj2 (Nat.ltb_lt _ _) L). reflexivity. Qed.
Lemma nth_other l i x j : j <> i -> nth_error (upd l i x) j = nth_error l j.
Proof. intros N. rewrite nth_error_upd. destruct (Nat.eqb_spec j i); [contradiction|reflexivity]. Qed.
Lemma nth_lt l i x : nth_error l i = Some x -> i < length l.
Proof. intros H. apply nth_error_Some. congruence. Qed.

Definition keeps l l' : Prop := length l <= length l' /\ forall i, nth_error l i = Some Deferred -> nth_error l' i = Some Deferred.
Lemma keeps_refl l : keeps l l.
Proof. split; auto. Qed.
Lemma keeps_trans l l1 l2 : keeps l l1 -> keeps l1 l2 -> keeps l l2.
Proof. intros (H1 & H2) (H3 & H4). split; [lia|auto]. Qed.
Lemma take_spec l (s : slot A) : exists l1 i, sp_take bs l s = (l1, i) /\ i < length l1 /\ length l <= length l1 /\ nth_error l1 i = Some s /\ forall j, j <> i -> j < length l -> nth_error l1 j = nth_error l j.
Proof.
  unfold sp_take. destruct (first_vacant l) as [i|] eqn:E.
  - destruct (first_vacant_some bs l i E) as (L & _). exists (upd l i s), i. rewrite upd_length. split; [reflexivity|]. split; [exact L|]. split; [lia|]. split; [now apply nth_at|]. intros j N _. now apply nth_other.
  - eexists _, _. split; [reflexivity|]. rewrite app_length. cbn [length]. split; [lia|]. split; [lia|]. split; [rewrite nth_error_app2, Nat.sub_diag by lia; reflexivity|]. intros j _ L. now rewrite nth_error_app1.
Qed.
Lemma take_vacant l (s : slot A) i : nth_error l i = Some Deferred -> nth_error (fst (sp_take bs l s)) i = Some Deferred.
Proof.
  intros H. pose proof (nth_lt _ _ _ H) as L. unfold sp_take. destruct (first_vacant l) as [k|] eqn:E; cbn [fst].
  - destruct (first_vacant_some bs l k E) as (_ & V & _). rewrite nth_other; [assumption|]. intros ->. congruence.
  - rewrite nth_error_app1; assumption.
Qed.
Lemma exec_keeps depth : forall cs l l', sp_exec depth cs l = Done l' -> keeps l l'.
Proof.
  induction depth as [|depth IH]; [discriminate|]. cbn [PoolReenterSpec.sp_exec]. induction cs as [|c cs IHc]; intros l l' E; cbn [sp_all] in E; [injection E as <-; apply keeps_refl|].
  destruct (sp_one (sp_exec depth) c l) as [l1|] eqn:E1; [|discriminate]. cbn [bind] in E. apply (keeps_trans l l1); [|now apply IHc]. clear E IHc. destruct c as [a at_|i]; cbn [PoolReenterSpec.sp_one] in E1.
  - destruct (take_spec l Deferred) as (l2 & i & ET & Li & LL & Ni & No). pose proof (take_vacant l Deferred) as TV. rewrite ET in E1, TV. cbn [fst] in TV. destruct (sp_exec depth (ctor a) l2) as [l3|] eqn:E2; [|discriminate]. injection E1 as <-.
    destruct (IH _ _ _ E2) as (K1 & K2). split; [rewrite upd_length; lia|]. intros j Hj. rewrite nth_other; [now apply K2, TV|].
    intros ->. assert (H : nth_error l i = Some Deferred) by exact Hj. unfold sp_take in ET. destruct (first_vacant l) as [k|] eqn:FV; injection ET as <- <-.
    + destruct (first_vacant_some bs l k FV) as (_ & V & _). congruence.
    + apply nth_lt in H. lia.
  - destruct (nth_error l i) as [[| |a]|] eqn:N; try discriminate. destruct (sp_exec depth (dtor a) (upd l i Deferred)) as [l3|] eqn:E2; [|discriminate]. injection E1 as <-. destruct (IH _ _ _ E2) as (K1 & K2). rewrite upd_length in K1.
    split; [rewrite upd_length; exact K1|]. intros j Hj. assert (j <> i) by congruence. rewrite nth_other by assumption. apply K2. now rewrite nth_other.
Qed.

(** *** Trees *)
Scheme tree_mut := Induction for PoolReenterSpec.tree Sort Prop with trees_mut := Induction for PoolReenterSpec.trees Sort Prop.
Definition agree l l0 (T : list nat) : Prop := forall j, In j T -> nth_error l0 j = nth_error l j.
Definition P_tree l (i : nat) (T : list nat) (_ : tree l i T) : Prop := NoDup T -> exists d, forall depth, d <= depth -> forall l0, agree l l0 T -> exists l', sp_one (sp_exec depth) (CFree i) l0 = Done l' /\ vacated l0 T l'.
Definition P_trees l (kids : list nat) (T : list nat) (_ : trees l kids T) : Prop := NoDup T -> exists d, forall depth, d <= depth -> forall l0, agree l l0 T -> exists l', sp_all (sp_one (sp_exec depth)) (map CFree kids) l0 = Done l' /\ vacated l0 T l'.
Lemma nodup_app {B} (u v : list B) : NoDup (u ++ v) -> NoDup u /\ NoDup v /\ forall x, In x u -> ~ In x v.
Proof.
  induction u as [|x u IH]; cbn; intros H; [split; [constructor|split; [assumption|contradiction]]|]. inversion H as [|? ? N H']; subst. destruct (IH H') as (H1 & H2 & H3). split; [constructor; [|assumption]|split; [assumption|]].
  - intros X. apply N, in_or_app. now left.
  - intros y [<-|Y] Z; [apply N, in_or_app; now right|now apply (H3 y)].
Qed.
Lemma node_case l i a kids T (E : nth_error l i = Some (Live a)) (D : dtor a = map CFree kids) (t : trees l kids T) : P_trees l kids T t -> P_tree l i (i :: T) (Node dtor l i a kids T E D t).
Proof.
  intros IH ND. inversion ND as [|? ? NI ND']; subst. destruct (IH ND') as (d & H). exists (S d). intros depth Hd l0 AG. destruct depth as [|depth]; [lia|].
  assert (E0 : nth_error l0 i = Some (Live a)) by (rewrite AG; [exact E|now left]). pose proof (nth_lt _ _ _ E0) as L. cbn [PoolReenterSpec.sp_one]. rewrite E0. cbn [PoolReenterSpec.sp_exec]. rewrite D.
  destruct (H depth ltac:(lia) (upd l0 i Deferred)) as (l1 & E1 & V1 & V2). { intros j Hj. rewrite nth_other by (intros ->; contradiction). apply AG. now right. }
  rewrite E1. cbn [bind]. eexists. split; [reflexivity|]. rewrite upd_length in V1. split; [rewrite upd_length; lia|]. intros j. destruct (V2 j) as (In_ & Out). split.
  - intros [<-|Hj]; [apply nth_at; lia|]. rewrite nth_other by (intros ->; contradiction). auto.
  - intros N. rewrite nth_other by (intros ->; apply N; now left). rewrite Out by (intros X; apply N; now right). apply nth_other. intros ->. apply N. now left.
Qed.
Lemma cons_case l i is T U (t : tree l i T) (ts : trees l is U) : P_tree l i T t -> P_trees l is U ts -> P_trees l (i :: is) (T ++ U) (Trees_cons dtor l i is T U t ts).
Proof.
  intros H1 H2 ND. destruct (nodup_app _ _ ND) as (N1 & N2 & DJ). destruct (H1 N1) as (d1 & R1). destruct (H2 N2) as (d2 & R2). exists (d1 + d2). intros depth Hd l0 AG. cbn [map sp_all].
  destruct (R1 depth ltac:(lia) l0) as (l1 & E1 & V1 & W1); [intros j Hj; apply AG, in_or_app; now left|]. rewrite E1. cbn [bind].
  destruct (R2 depth ltac:(lia) l1) as (l2 & E2 & V2 & W2). { intros j Hj. rewrite (proj2 (W1 j)) by (intros X; exact (DJ j X Hj)). apply AG, in_or_app. now right. }
  exists l2. split; [exact E2|]. split; [congruence|]. intros j. split.
  - intros Hj. apply in_app_or in Hj. destruct (in_dec Nat.eq_dec j U) as [I|N]; [now apply W2|]. rewrite (proj2 (W2 j) N). destruct Hj as [Hj|Hj]; [now apply W1|contradiction].
  - intros N. rewrite (proj2 (W2 j)) by (intros X; apply N, in_or_app; now right). apply W1. intros X. apply N, in_or_app. now left.
Qed.
Lemma free_trees l kids T : trees l kids T -> NoDup T -> exists d, forall depth, d <= depth -> forall l0, agree l l0 T -> exists l', sp_all (sp_one (sp_exec depth)) (map CFree kids) l0 = Done l' /\ vacated l0 T l'.
Proof.
  intros t. change (P_trees l kids T t). apply (trees_mut A dtor l (P_tree l) (P_trees l)).
  - intros. now apply node_case.
  - intros _. exists 0. intros depth _ l0 _. exists l0. repeat split; auto. intros [].
  - intros. now apply cons_case.
Qed.
Lemma free_tree l i T : tree l i T -> NoDup T -> exists d, forall depth, d <= depth -> exists l', sp_exec depth [CFree i] l = Done l' /\ vacated l T l'.
Proof.
  intros t ND. destruct (free_trees l [i] (T ++ [])) as (d & H). { constructor; [assumption|constructor]. } { now rewrite app_nil_r. }
  exists (S d). intros depth Hd. destruct depth as [|depth]; [lia|]. cbn [PoolReenterSpec.sp_exec]. rewrite app_nil_r in H. apply (H depth); [lia|]. intros j _. reflexivity.
Qed.
(** A tree only depends on its own slots. *)
Definition F_tree l (i : nat) (T : list nat) (_ : tree l i T) : Prop := forall l0, agree l l0 T -> tree l0 i T.
Definition F_trees l (is : list nat) (T : list nat) (_ : trees l is T) : Prop := forall l0, agree l l0 T -> trees l0 is T.
Lemma tree_frame l i T : tree l i T -> forall l0, agree l l0 T -> tree l0 i T.
Proof.
  intros t. change (F_tree l i T t). apply (tree_mut A dtor l (F_tree l) (F_trees l)).
  - intros i0 a kids T0 E D t0 IH l0 AG. apply (Node dtor l0 i0 a kids T0); [rewrite AG; [assumption|now left]|assumption|]. apply IH. intros j Hj. apply AG. now right.
  - intros l0 _. constructor.
  - intros i0 is T0 U t0 IH1 t1 IH2 l0 AG. constructor; [apply IH1|apply IH2]; intros j Hj; apply AG, in_or_app; auto.
Qed.
(** All slots of a tree have objects; each but the root has an owner. *)
Definition L_tree l (i : nat) (T : list nat) (_ : tree l i T) : Prop := forall j, In j T -> (exists a, nth_error l j = Some (Live a)) /\ (j = i \/ exists k a, In k T /\ nth_error l k = Some (Live a) /\ In (CFree j) (dtor a)).
Definition L_trees l (is : list nat) (T : list nat) (_ : trees l is T) : Prop := forall j, In j T -> (exists a, nth_error l j = Some (Live a)) /\ (In j is \/ exists k a, In k T /\ nth_error l k = Some (Live a) /\ In (CFree j) (dtor a)).
Lemma tree_live l i T : tree l i T -> forall j, In j T -> (exists a, nth_error l j = Some (Live a)) /\ (j = i \/ exists k a, In k T /\ nth_error l k = Some (Live a) /\ In (CFree j) (dtor a)).
Proof.
  intros t. change (L_tree l i T t). apply (tree_mut A dtor l (L_tree l) (L_trees l)).
  - intros i0 a kids T0 E D t0 IH j [<-|Hj]; [split; [eauto|now left]|]. destruct (IH j Hj) as (X & [Y|(k & b & Y1 & Y2 & Y3)]); (split; [exact X|right]); [exists i0, a|exists k, b]; (split; [cbn; auto|]); (split; [assumption|]); [|assumption]. rewrite D. now apply in_map.
  - intros j [].
  - intros i0 is T0 U t0 IH1 t1 IH2 j Hj. apply in_app_or in Hj. destruct Hj as [Hj|Hj].
    + destruct (IH1 j Hj) as (X & [-> | (k & b & Y1 & Y2 & Y3)]); (split; [exact X|]); [left; now left|right]. exists k, b. split; [apply in_or_app; now left|auto].
    + destruct (IH2 j Hj) as (X & [Y|(k & b & Y1 & Y2 & Y3)]); (split; [exact X|]); [left; now right|right]. exists k, b. split; [apply in_or_app; now right|auto].
Qed.

Definition O_tree l (i : nat) (T : list nat) (_ : tree l i T) : Prop := forall j a, In j T -> nth_error l j = Some (Live a) -> Forall (frees (A := A)) (dtor a).
Definition O_trees l (is : list nat) (T : list nat) (_ : trees l is T) : Prop := forall j a, In j T -> nth_error l j = Some (Live a) -> Forall (frees (A := A)) (dtor a).
Lemma tree_frees l i T : tree l i T -> forall j a, In j T -> nth_error l j = Some (Live a) -> Forall (frees (A := A)) (dtor a).
Proof.
  intros t. change (O_tree l i T t). apply (tree_mut A dtor l (O_tree l) (O_trees l)).
  - intros i0 a kids T0 E D t0 IH j b [<-|Hj] Hb; [|now apply (IH j)]. assert (b = a) by congruence. subst b. rewrite D. apply Forall_forall. intros c Hc. apply in_map_iff in Hc. destruct Hc as (k & <- & _). exact Logic.I.
  - intros j a [].
  - intros i0 is T0 U t0 IH1 t1 IH2 j a Hj Ha. apply in_app_or in Hj. destruct Hj as [Hj|Hj]; [now apply (IH1 j)|now apply (IH2 j)].
Qed.

(** *** Going over all slots *)
Notation sp_wipe := (sp_wipe bs ctor dtor).
Notation sp_reset := (sp_reset bs ctor dtor).
Lemma reset_app depth is js : forall l, sp_reset depth (is ++ js) l = l <- sp_reset depth is l ;; sp_reset depth js l.
Proof. induction is as [|i is IH]; intros l; cbn [app PoolReenterSpec.sp_reset bind]; [reflexivity|]. destruct (sp_wipe depth i l); [|reflexivity]. cbn [bind]. apply IH. Qed.

Lemma in_concat_split (F : list (nat * list nat)) j : In j (concat (map snd F)) -> exists F1 r T F2, F = F1 ++ (r, T) :: F2 /\ In j T.
Proof.
  induction F as [|(r, T) F IH]; cbn [map concat]; [intros []|]. intros H. apply in_app_or in H. destruct H as [H|H]; [exists [], r, T, F; auto|].
  destruct (IH H) as (F1 & r' & T' & F2 & -> & H'). exists ((r, T) :: F1), r', T', F2. auto.
Qed.
Definition from (i : nat) (F : list (nat * list nat)) : Prop := forall j, In j (concat (map snd F)) -> i <= j.
Lemma wipe_forest l F i : forest dtor l F -> upward dtor l -> from i F -> nth_error l i <> Some Deferred ->
  exists d F', forall depth, d <= depth -> exists l', sp_wipe depth i l = Done l' /\ length l' = length l /\ forest dtor l' F' /\ upward dtor l' /\ from (i + 1) F' /\ (forall j, i <> j -> nth_error l' j = Some Deferred -> nth_error l j = Some Deferred).
Proof.
  intros (HT & HN & HC) UP FR ND. destruct (nth_error l i) as [[| |a]|] eqn:E; [|congruence| |].
  1,3: exists 0, F; intros depth _; unfold PoolReenterSpec.sp_wipe; rewrite E; exists l; (split; [reflexivity|]); (split; [reflexivity|]); (split; [repeat split; assumption|]); (split; [assumption|]); (split; [|auto]); intros j Hj; pose proof (FR j Hj);
    destruct (in_concat_split F j Hj) as (F1 & r & T & F2 & -> & HjT); rewrite Forall_forall in HT; pose proof (HT (r, T) ltac:(apply in_or_app; right; now left)) as t; destruct (tree_live _ _ _ t j HjT) as ((b & X) & _); assert (j <> i) by congruence; lia.
  pose proof (HC i a E) as Hi. destruct (in_concat_split F i Hi) as (F1 & r & T & F2 & -> & HiT). assert (t : tree l r T) by (rewrite Forall_forall in HT; apply (HT (r, T)); apply in_or_app; right; now left).
  assert (i = r). { destruct (tree_live _ _ _ t i HiT) as (_ & [R|(k & b & K1 & K2 & K3)]); [exact R|]. pose proof (UP k b i K2 K3). assert (i <= k). { apply FR. rewrite map_app, concat_app. apply in_or_app. right. cbn [map concat snd]. apply in_or_app. now left. } lia. }
  subst r. inversion t as [? a' kids T' E' D ts]; subst. assert (a' = a) by congruence. subst a'.
  rewrite map_app, concat_app in HN. cbn [map concat snd] in HN. destruct (nodup_app _ _ HN) as (N1 & N2 & DJ1). destruct (nodup_app _ _ N2) as (N3 & N4 & DJ2). inversion N3 as [|? ? NI N5]; subst.
  destruct (free_trees l kids T' ts N5) as (d & H). exists (S d), (F1 ++ F2). intros depth Hd. destruct depth as [|depth]; [lia|]. unfold PoolReenterSpec.sp_wipe. rewrite E. cbn [PoolReenterSpec.sp_exec]. rewrite D.
  destruct (H depth ltac:(lia) (upd l i Deferred)) as (l' & El & V1 & V2). { intros j Hj. apply nth_other. intros ->. contradiction. }
  exists l'. split; [exact El|]. split; [rewrite upd_length in V1; exact V1|].
  assert (OLD : forall j b, nth_error l' j = Some (Live b) -> nth_error l j = Some (Live b) /\ ~ In j (i :: T')).
  { intros j b Hj. assert (NT : ~ In j T') by (intros X; rewrite (proj1 (V2 j) X) in Hj; discriminate). rewrite (proj2 (V2 j) NT) in Hj. rewrite nth_error_upd in Hj. destruct (Nat.eqb_spec j i) as [->|NE].
    - rewrite (proj2 (Nat.ltb_lt _ _) (nth_lt _ _ _ E)) in Hj. discriminate.
    - split; [exact Hj|]. intros [X|X]; [congruence|contradiction]. }
  assert (KEEP : forall j, ~ In j (i :: T') -> nth_error l' j = nth_error l j).
  { intros j Hj. rewrite (proj2 (V2 j)) by (intros X; apply Hj; now right). apply nth_other. intros ->. apply Hj. now left. }
  split; [|split; [|split]].
  - repeat split.
    + rewrite Forall_forall in *. intros (r2, T2) H2. apply (tree_frame l); [apply (HT (r2, T2)); apply in_app_or in H2; apply in_or_app; destruct H2; [now left|right; now right]|].
      intros j Hj. apply KEEP. intros X. apply in_app_or in H2. destruct H2 as [H2|H2].
      * apply (DJ1 j); [apply in_concat; exists T2; split; [apply in_map_iff; exists (r2, T2); auto|assumption]|]. apply in_or_app. now left.
      * apply (DJ2 j); [exact X|]. apply in_concat. exists T2. split; [apply in_map_iff; exists (r2, T2); auto|assumption].
    + rewrite map_app, concat_app. clear -N1 N4 DJ1. revert DJ1. induction (concat (map snd F1)) as [|x u IH]; intros DJ; [exact N4|]. inversion N1; subst. cbn. constructor; [|apply IH; auto; intros y Hy; apply DJ; now right].
      intros X. apply in_app_or in X. destruct X as [X|X]; [contradiction|]. apply (DJ x (or_introl eq_refl)). apply in_or_app. now right.
    + intros j b Hj. destruct (OLD j b Hj) as (O1 & O2). pose proof (HC j b O1) as X. rewrite map_app, concat_app in *. cbn [map concat snd] in X. apply in_app_or in X. apply in_or_app. destruct X as [X|X]; [now left|]. apply in_app_or in X. destruct X as [X|X]; [contradiction|now right].
  - intros j b k Hj Hk. destruct (OLD j b Hj) as (O1 & _). exact (UP j b k O1 Hk).
  - intros j Hj. assert (J : In j (concat (map snd (F1 ++ (i, i :: T') :: F2)))). { rewrite map_app, concat_app in *. cbn [map concat snd]. apply in_app_or in Hj. apply in_or_app. destruct Hj as [Hj|Hj]; [now left|right]. apply in_or_app. now right. }
    pose proof (FR j J). assert (j <> i); [|lia]. intros ->. rewrite map_app, concat_app in Hj. apply in_app_or in Hj. destruct Hj as [Hj|Hj]; [apply (DJ1 i Hj); apply in_or_app; left; now left|apply (DJ2 i (or_introl eq_refl) Hj)].
  - intros j NJ Hj. assert (NT : ~ In j T') by (intros X; rewrite (proj1 (V2 j) X) in Hj; discriminate). rewrite (proj2 (V2 j) NT) in Hj. rewrite nth_other in Hj by congruence. exact Hj.
Qed.
Lemma reset_forest : forall n l F i, forest dtor l F -> upward dtor l -> from i F -> length l = i + n -> (forall j, i <= j -> nth_error l j <> Some Deferred) ->
  exists d, forall depth, d <= depth -> exists l', sp_reset depth (seq i n) l = Done l' /\ length l' = length l /\ (forall j a, nth_error l' j <> Some (Live a)).
Proof.
  induction n as [|n IH]; intros l F i FO UP FR LE DF.
  - exists 0. intros depth _. exists l. split; [reflexivity|]. split; [reflexivity|]. intros j a Hj. pose proof (nth_lt _ _ _ Hj). destruct FO as (_ & _ & HC). pose proof (FR j (HC j a Hj)). lia.
  - destruct (wipe_forest l F i FO UP FR (DF i (le_n i))) as (d & F' & H).
    assert (d2 : exists d2, forall depth, d2 <= depth -> forall l', sp_wipe depth i l = Done l' -> d <= depth -> exists l2, sp_reset depth (seq (i + 1) n) l' = Done l2 /\ length l2 = length l' /\ (forall j a, nth_error l2 j <> Some (Live a))).
    { destruct (H d (le_n d)) as (l1 & E1 & L1 & FO1 & UP1 & FR1 & DF1). destruct (IH l1 F' (i + 1) FO1 UP1 FR1 ltac:(lia)) as (d2 & H2). { intros j Hj X. apply (DF j ltac:(lia)). apply DF1; [lia|exact X]. }
      exists d2. intros depth Hd l' El Hd1. destruct (H depth Hd1) as (l1' & E1' & L1' & FO1' & UP1' & FR1' & DF1'). assert (l1' = l') by congruence. subst l1'.
      assert (l' = l1); [|subst l1; now apply H2].
      (* more depth does not change the result *)
      clear -E1 El Hd1. unfold PoolReenterSpec.sp_wipe in *. destruct (nth_error l i) as [[| |a]|]; try congruence.
      assert (MONO : forall d1 cs x y, sp_exec d1 cs x = Done y -> forall d2, d1 <= d2 -> sp_exec d2 cs x = Done y).
      { clear. induction d1 as [|d1 IH]; [discriminate|]. induction cs as [|c cs IHc]; intros x y E d2 Hd; (destruct d2 as [|d2]; [lia|]); cbn [PoolReenterSpec.sp_exec sp_all] in *; [exact E|].
        destruct (sp_one (sp_exec d1) c x) as [z|] eqn:Z; [|discriminate]. cbn [bind] in E. assert (sp_one (sp_exec d2) c x = Done z) as ->.
        { destruct c as [a at_|k]; cbn [PoolReenterSpec.sp_one] in *.
          - destruct (sp_take bs x Deferred) as (x1, k). destruct (sp_exec d1 (ctor a) x1) as [x2|] eqn:X; [|discriminate]. rewrite (IH _ _ _ X d2) by lia. exact Z.
          - destruct (nth_error x k) as [[| |a]|]; try discriminate. destruct (sp_exec d1 (dtor a) (upd x k Deferred)) as [x2|] eqn:X; [|discriminate]. rewrite (IH _ _ _ X d2) by lia. exact Z. }
        cbn [bind]. apply (IHc z y E (S d2) Hd). }
      pose proof (MONO _ _ _ _ E1 depth Hd1). congruence. }
    destruct d2 as (d2 & H2). exists (d + d2). intros depth Hd. destruct (H depth ltac:(lia)) as (l1 & E1 & L1 & _). destruct (H2 depth ltac:(lia) l1 E1 ltac:(lia)) as (l2 & E2 & L2 & NL).
    exists l2. cbn [seq PoolReenterSpec.sp_reset]. rewrite E1. cbn [bind]. rewrite <- Nat.add_1_r. split; [exact E2|]. split; [congruence|exact NL].
Qed.
Lemma forest_freeing l F : forest dtor l F -> freeing dtor l.
Proof.
  intros (HT & _ & HC) j a Hj. destruct (in_concat_split F j (HC j a Hj)) as (F1 & r & T & F2 & -> & HjT). rewrite Forall_forall in HT. exact (tree_frees l r T (HT (r, T) ltac:(apply in_or_app; right; now left)) j a HjT Hj).
Qed.
End Spec.
