(** Loops over iterators visit every element once, in order. *)
From Verif Require Import IterModel CellProofs VectorSpec VectorProofs VectorHistory VectorCopy StackProofs.

Lemma snoc_cases {A} (l : list A) k : k < length l -> exists a, nth_error l k = Some a /\ firstn (k + 1) l = firstn k l ++ [a] /\ skipn k l = a :: skipn (k + 1) l.
Proof.
  intros H. destruct (nth_error l k) as [a|] eqn:N; [|apply nth_error_None in N; lia]. exists a. split; [reflexivity|].
  revert k H N. induction l as [|x l IH]; intros [|k] H N; simpl in *; try lia; [injection N as ->; auto; now split|].
  destruct (IH k) as (E1 & E2); [lia | assumption|]. replace (k + 1) with (Datatypes.S k) in * by lia. simpl in *. split; [now rewrite E1 | exact E2].
Qed.
Lemma upd_two {A} (p r : list A) x y : upd (p ++ x :: r) (length p) y = p ++ y :: r.
Proof. now apply upd_mid. Qed.

Section Loops.
Context {A S : Type}.
Variables (load : S -> nat -> outcome (option A)) (store : S -> nat -> option A -> outcome S) (R : S -> list A -> Prop).
Hypothesis R_load : forall s l i a, R s l -> nth_error l i = Some a -> load s i = Done (Some a).
Hypothesis R_store : forall s l i a, R s l -> i < length l -> exists s', store s i (Some a) = Done s' /\ R s' (upd l i a).

Lemma walk_spec s l : R s l -> forall n k fuel, n = length l - k -> k <= length l -> n < fuel -> walk load fuel s k (length l) = Done (map Some (skipn k l)).
Proof.
  clear R_store. clear store. intros H. induction n as [|n IH]; intros k [|fuel] E Hk HF; try lia; simpl.
  - replace k with (length l) by lia. now rewrite Nat.eqb_refl, skipn_all.
  - replace (k =? length l) with false by lia. destruct (snoc_cases l k) as (a & N & _ & ->); [lia|]. rewrite (R_load s l k a H N). cbn [bind].
    rewrite IH by lia. reflexivity.
Qed.
Lemma walk_back_spec s l : R s l -> forall k fuel, k <= length l -> k < fuel -> walk_back load fuel s k 0 = Done (map Some (rev (firstn k l))).
Proof.
  clear R_store. clear store. intros H. induction k as [|k IH]; intros [|fuel] Hk HF; try lia; [reflexivity|]. cbn [walk_back Nat.eqb negb require bind]. replace (Datatypes.S k - 1) with k by lia.
  destruct (snoc_cases l k) as (a & N & E & _); [lia|]. rewrite (R_load s l k a H N). cbn [bind]. rewrite IH by lia. cbn [bind].
  replace (Datatypes.S k) with (k + 1) by lia. rewrite E, rev_app_distr. reflexivity.
Qed.
Lemma write_spec f l2 : forall l1 s fuel, R s (l1 ++ l2) -> length l2 < fuel ->
  exists s', write load store f fuel s (length l1) (length (l1 ++ l2)) = Done s' /\ R s' (l1 ++ map f l2).
Proof.
  induction l2 as [|a l2 IH]; intros l1 s [|fuel] H HF; simpl in HF; try lia; cbn [write].
  - cbn [map]. rewrite app_nil_r in *. rewrite Nat.eqb_refl. eauto.
  - rewrite app_length. cbn [length]. replace (length l1 =? length l1 + Datatypes.S (length l2)) with false by lia.
    rewrite (R_load s _ _ a H) by (now rewrite nth_error_mid). cbn [bind option_map].
    destruct (R_store s _ (length l1) (f a) H) as (s' & -> & H'); [rewrite app_length; simpl; lia|]. cbn [bind]. rewrite upd_two in H'.
    destruct (IH (l1 ++ [f a]) s' fuel) as (s'' & E & H''); [now rewrite <- app_assoc | lia|].
    rewrite !app_length in E. cbn [length] in E. replace (length l1 + Datatypes.S (length l2)) with (length l1 + 1 + length l2) by lia. rewrite E.
    exists s''. split; [reflexivity|]. rewrite <- app_assoc in H''. exact H''.
Qed.
Lemma write_back_spec f l1 : forall l2 s fuel, R s (l1 ++ l2) -> length l1 < fuel ->
  exists s', write_back load store f fuel s (length l1) 0 = Done s' /\ R s' (map f l1 ++ l2).
Proof.
  induction l1 as [|a l1 IH] using rev_ind; intros l2 s [|fuel] H HF; rewrite ?app_length in HF; simpl in HF; try lia; cbn [write_back].
  - cbn [length Nat.eqb]. eauto.
  - rewrite app_length. cbn [length]. replace (length l1 + 1 =? 0) with false by lia. cbn [negb require bind]. replace (length l1 + 1 - 1) with (length l1) by lia.
    rewrite <- app_assoc in H. cbn [app] in H. rewrite (R_load s _ _ a H) by (now rewrite nth_error_mid). cbn [bind option_map].
    destruct (R_store s _ (length l1) (f a) H) as (s' & -> & H'); [rewrite app_length; simpl; lia|]. cbn [bind]. rewrite upd_two in H'.
    destruct (IH (f a :: l2) s' fuel H') as (s'' & E & H''); [lia|]. rewrite E. exists s''. split; [reflexivity|]. rewrite map_app, <- app_assoc. exact H''.
Qed.
End Loops.

Section Containers.
Context {A : Type}.
Implicit Types l : list A.

Lemma rep_read has cap (v : fvec A) l i a : rep has cap v l -> nth_error l i = Some a -> fv_load has v i = Done (Some a).
Proof. intros R N. rewrite (rep_load has cap v l i a R) by (apply nth_error_Some; congruence). now rewrite (nth_error_nth _ _ _ N). Qed.
Lemma rep_store has cap (v : fvec A) l i a : rep has cap v l -> i < length l -> exists v', fv_store has v i (Some a) = Done v' /\ rep has cap v' (upd l i a).
Proof.
  intros R Hi. destruct (set_rep has cap v l i a R Hi) as (v' & E & H). exists v'. split; [|exact H]. unfold fv_set in E. rewrite (rep_size has cap v l R) in E.
  now replace (i <? length l) with true in E by lia.
Qed.

(** The elements of a block, and the cells after them. *)
Definition block_holds b (h0 : list (list (cell A))) (T : list (cell A)) (h : list (list (cell A))) l : Prop := b < length h0 /\ h = upd h0 b (map Obj (map Some l) ++ T).
Lemma block_get b h0 T h l : block_holds b h0 T h l -> nth_error h b = Some (map Obj (map Some l) ++ T).
Proof. intros (Hb & ->). now apply nth_upd_block. Qed.
Lemma block_read b h0 T h l i a : block_holds b h0 T h l -> nth_error l i = Some a -> read_block h (Some b) i = Done (Some a).
Proof.
  intros B N. apply block_get in B. assert (i < length l) by (apply nth_error_Some; congruence). unfold read_block. rewrite (vget_some _ _ _ B). cbn [bind].
  unfold read. rewrite nth_error_app1 by (rewrite !map_length; lia). rewrite map_map, (map_nth_error _ _ _ N). reflexivity.
Qed.
Lemma block_store b h0 T h l i a : block_holds b h0 T h l -> i < length l ->
  exists h', on_block h (Some b) (fun m => assign m i (Some a)) = Done h' /\ block_holds b h0 T h' (upd l i a).
Proof.
  intros B Hi. pose proof (block_get _ _ _ _ _ B) as G. rewrite (on_block_some h b _ _ G). destruct (snoc_cases l i Hi) as (x & N & _ & E2).
  assert (K : assign (map Obj (map Some l) ++ T) i (Some a) = Done (map Obj (map Some (firstn i l ++ a :: skipn (i + 1) l)) ++ T)).
  { rewrite <- (firstn_skipn i l) at 1. rewrite E2, !map_app, <- !app_assoc. cbn [map app]. rewrite assign_mid by (rewrite !map_length, firstn_length_le; lia). reflexivity. }
  rewrite K. cbn [bind]. eexists. split; [reflexivity|]. destruct B as (Hb & ->). split; [exact Hb|]. rewrite upd_upd. do 4 f_equal.
  rewrite <- (firstn_skipn i l) at 3. rewrite E2. symmetry. apply upd_mid. rewrite firstn_length_le; lia.
Qed.
End Containers.
