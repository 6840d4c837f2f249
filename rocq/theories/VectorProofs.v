(** The operations of FixedVector / HybridVector on the states they reach. *)
From Verif Require Import CellModel CellProofs VectorModel.

Section Vector.
Context {A : Type}.
Variables (has : bool) (cap : nat) (dflt : A).
Implicit Types (q l : list (option A)) (v : fvec A).

Notation raws n := (repeat (@Raw A) n).
(** Elements in the inline storage, or in the fallback. *)
Definition inl q : fvec A := FV (Count (length q)) (map Obj q ++ raws (cap - length q)) [].
Definition spl q : fvec A := FV FallbackInUse (raws cap) q.

Lemma fb_inl q : IsUsingFallback has (inl q) = false.
Proof. unfold IsUsingFallback. simpl. apply andb_false_r. Qed.

Lemma size_inl q : fv_size has (inl q) = length q.
Proof. unfold fv_size. now rewrite fb_inl. Qed.

Lemma empty_inl q : fv_empty has (inl q) = (length q =? 0).
Proof. unfold fv_empty. now rewrite fb_inl. Qed.

Lemma load_inl q i d : i < length q -> fv_load has (inl q) i = Done (nth i q d).
Proof.
  intros H. unfold fv_load. rewrite fb_inl. simpl.
  change (map Obj q ++ raws (cap - length q)) with ([] ++ map Obj q ++ raws (cap - length q)).
  rewrite (read_nth _ q _ i d) by (simpl; lia). simpl. now rewrite Nat.sub_0_r.
Qed.

Lemma raws_S n : 0 < n -> raws n = Raw :: raws (n - 1).
Proof. destruct n; [lia|]. intros _. simpl. now rewrite Nat.sub_0_r. Qed.

Lemma map_cut {B C} (f : B -> C) i (q : list B) : map f q = map f (firstn i q) ++ map f (skipn i q).
Proof. now rewrite <- map_app, firstn_skipn. Qed.

Lemma inl_cells q o : length q < cap -> FV (Count (length q + 1)) (map Obj q ++ Obj o :: raws (cap - length q - 1)) [] = inl (q ++ [o]).
Proof.
  intros H. unfold inl. rewrite app_length, map_app, <- app_assoc. simpl. now replace (cap - (length q + 1)) with (cap - length q - 1) by lia.
Qed.

(** *** Growth *)
Lemma spill_inl q : has = true -> length q <= cap -> MoveStorageToFallback has (inl q) = Done (spl q).
Proof.
  intros Hh HL. unfold MoveStorageToFallback, count. rewrite fb_inl. cbn [negb assert bind m_size m_data fallback inl].
  assert (G : forall q2 q1 (R : list (cell A)), 
    foreach (range (length q1) (length q1 + length q2)) (fun '(m, f) i => ' (o, m1) <- take m i ;; m2 <- destroy m1 i ;; Done (m2, f ++ [o]))
      (raws (length q1) ++ map Obj q2 ++ R, q1) = Done (raws (length q1) ++ raws (length q2) ++ R, q1 ++ q2)).
  { induction q2 as [|x q2 IH]; intros q1 R; simpl.
    - rewrite foreach_range_0 by lia. now rewrite app_nil_r.
    - rewrite foreach_range_S. rewrite take_mid by (now rewrite repeat_length). simpl.
      rewrite destroy_mid by (now rewrite repeat_length). simpl.
      specialize (IH (q1 ++ [x]) R). rewrite app_length in IH. simpl in IH. 
      replace (raws (length q1 + 1)) with (raws (length q1) ++ [Raw]) in IH by (now rewrite repeat_app).
      rewrite <- !app_assoc in IH. simpl in IH. exact IH. }
  specialize (G q [] (raws (cap - length q))). cbn [length repeat app Nat.add] in G. rewrite G. cbn [bind]. unfold spl. rewrite <- repeat_app. do 2 f_equal. f_equal. lia.
Qed.

Lemma grow_inl q : length q < cap -> CheckFallbackOnGrow has cap (inl q) = Done (inl q, false).
Proof. intros H. unfold CheckFallbackOnGrow. rewrite fb_inl. change (count (inl q)) with (length q). destruct has; [|reflexivity]. destruct (Nat.leb_spec cap (length q)); [lia | reflexivity]. Qed.

Lemma grow_full q : has = true -> length q = cap -> CheckFallbackOnGrow has cap (inl q) = Done (spl q, true).
Proof.
  intros Hh H. unfold CheckFallbackOnGrow. rewrite fb_inl, Hh. change (count (inl q)) with (length q). destruct (Nat.leb_spec cap (length q)); [|lia].
  rewrite <- Hh. rewrite spill_inl by (trivial; lia). reflexivity.
Qed.

Lemma grow_none q : has = false -> CheckFallbackOnGrow has cap (inl q) = Done (inl q, false).
Proof. intros H. unfold CheckFallbackOnGrow. now rewrite H. Qed.

Lemma fb_spl q : has = true -> IsUsingFallback has (spl q) = true.
Proof. intros H. unfold IsUsingFallback. now rewrite H. Qed.

Lemma grow_spl q : has = true -> CheckFallbackOnGrow has cap (spl q) = Done (spl q, true).
Proof. intros H. unfold CheckFallbackOnGrow. rewrite fb_spl by assumption. now rewrite H. Qed.

(** *** Arguments bound outside the vector *)
Definition arg_value (x : arg A) : option A := match x with ByCopy a | ByMove a => Some a | OwnElement _ => None end.
Definition outside (x : arg A) : Prop := match x with OwnElement _ => False | _ => True end.

Lemma fetch_outside v v' x : outside x -> fetch v' (resolve has v x) = Done (arg_value x).
Proof. destruct x; simpl; [reflexivity | reflexivity | contradiction]. Qed.

(** emplace opens a raw cell at the index. *)
Lemma open_gap q1 q2 : q2 <> [] -> length q1 + length q2 < cap ->
  let q := q1 ++ q2 in let index := length q1 in let last := length q - 1 in
  (' (o, m) <- take (m_data (inl q)) last ;;
   m <- construct m (length q) o ;;
   m <- (if index <? last then move_backward m index (length q - 1 - index) (index + 1) else Done m) ;;
   m <- destroy m index ;;
   Done (FV (m_size (inl q)) m (fallback (inl q))))
  = Done (FV (Count (length q)) (map Obj q1 ++ Raw :: map Obj q2 ++ raws (cap - length q - 1)) []).
Proof.
  intros Hne HL q index last. destruct (exists_last Hne) as (q3 & z & E). subst q2.
  assert (LQ : length q = length q1 + length q3 + 1) by (unfold q; rewrite !app_length; simpl; lia).
  assert (HM : m_data (inl q) = (map Obj q1 ++ map Obj q3) ++ Obj z :: Raw :: raws (cap - length q - 1)).
  { unfold inl; cbn [m_data]. replace (map Obj q) with (map Obj q1 ++ map Obj q3 ++ [Obj z]) by (unfold q; now rewrite !map_app). rewrite <- !app_assoc. do 2 f_equal. simpl. f_equal. apply raws_S. rewrite app_length in HL. simpl in HL. lia. }
  rewrite HM. rewrite take_mid by (rewrite app_length, !map_length; unfold last; lia). cbn [bind].
  replace ((map Obj q1 ++ map Obj q3) ++ Obj None :: Raw :: raws (cap - length q - 1))
    with (((map Obj q1 ++ map Obj q3) ++ [Obj (@None A)]) ++ Raw :: raws (cap - length q - 1)) by (now rewrite <- app_assoc).
  rewrite construct_mid by (rewrite !app_length, !map_length; simpl; lia). cbn [bind].
  rewrite <- !app_assoc. cbn [app].
  assert (HB : exists y', (if index <? last then move_backward (map Obj q1 ++ map Obj q3 ++ Obj None :: Obj z :: raws (cap - length q - 1)) index (length q - 1 - index) (index + 1)
    else Done (map Obj q1 ++ map Obj q3 ++ Obj None :: Obj z :: raws (cap - length q - 1)))
    = Done (map Obj q1 ++ Obj y' :: map Obj q3 ++ Obj z :: raws (cap - length q - 1))).
  { destruct (Nat.ltb_spec index last) as [H|H].
    - replace (length q - 1 - index) with (length q3) by (unfold index; lia).
      apply move_backward_spec; now rewrite map_length.
    - assert (q3 = []) as -> by (destruct q3; [reflexivity | simpl in LQ; unfold index, last in H; lia]). exists None. reflexivity. }
  destruct HB as (y' & ->). cbn [bind]. rewrite destroy_mid by (now rewrite map_length). cbn [bind].
  unfold inl. cbn [m_size fallback]. do 4 f_equal. rewrite map_app, <- app_assoc. reflexivity.
Qed.

Lemma emplace_inl q i x : i <= length q -> length q < cap -> outside x ->
  fv_emplace has cap (inl q) i x = Done (inl (firstn i q ++ arg_value x :: skipn i q), i, is_move x).
Proof.
  intros Hi HL Hx. unfold fv_emplace. rewrite size_inl. replace (i <=? length q) with true by lia. cbn [assert bind].
  rewrite grow_inl by assumption. cbn [bind]. unfold count at 1. cbn [m_size inl]. replace (length q <? cap) with true by lia. cbn [assert bind].
  unfold count at 1. cbn [m_size inl]. destruct (Nat.ltb_spec i (length q)) as [H|H].
  - assert (EQ : q = firstn i q ++ skipn i q) by (now rewrite firstn_skipn).
    assert (L1 : length (firstn i q) = i) by (rewrite firstn_length; lia).
    assert (L2 : length (skipn i q) = length q - i) by (apply skipn_length).
    pose proof (open_gap (firstn i q) (skipn i q)) as G. cbv zeta in G. rewrite <- EQ, L1 in G. cbv zeta.
    unfold count. cbn [m_size inl]. fold (inl q). cbn [m_size inl] in G.
    rewrite G; [|intros E; rewrite E in L2; simpl in L2; lia | rewrite L2; lia]. cbn [bind]. rewrite fetch_outside by assumption. cbn [bind m_data m_size fallback].
    rewrite construct_mid by (rewrite map_length; lia). cbn [bind]. do 3 f_equal. unfold inl. f_equal.
    + f_equal. rewrite app_length. simpl. rewrite L1, L2. lia.
    + rewrite map_app, <- app_assoc. cbn [map app]. do 4 f_equal. rewrite app_length. simpl. rewrite L1, L2. lia.
  - assert (i = length q) by lia. subst i. cbn [bind]. rewrite fetch_outside by assumption. cbn [bind m_data m_size fallback inl].
    rewrite (raws_S (cap - length q)) by lia. rewrite construct_mid by (now rewrite map_length). cbn [bind].
    unfold count. cbn [m_size fallback inl]. rewrite inl_cells by assumption. now rewrite firstn_all, skipn_all.
Qed.

Lemma push_inl q x : length q < cap -> outside x -> fv_push_back has cap (inl q) x = Done (inl (q ++ [arg_value x]), is_move x).
Proof.
  intros HL Hx. unfold fv_push_back. rewrite grow_inl by assumption. cbn [bind]. unfold count. cbn [m_size inl]. replace (length q <? cap) with true by lia.
  cbn [assert bind]. rewrite fetch_outside by assumption. cbn [bind m_data m_size fallback inl].
  rewrite (raws_S (cap - length q)) by lia. rewrite construct_mid by (now rewrite map_length). cbn [bind]. now rewrite inl_cells.
Qed.

Lemma emplace_back_inl q x : length q < cap -> outside x -> fv_emplace_back has cap (inl q) x = Done (inl (q ++ [arg_value x]), is_move x).
Proof.
  intros HL Hx. unfold fv_emplace_back. rewrite grow_inl by assumption. cbn [bind]. unfold count. cbn [m_size inl]. replace (length q <? cap) with true by lia.
  cbn [assert bind]. rewrite fetch_outside by assumption. cbn [bind m_data m_size fallback inl].
  rewrite (raws_S (cap - length q)) by lia. rewrite construct_mid by (now rewrite map_length). cbn [bind]. now rewrite inl_cells.
Qed.

Lemma fb_emplace q i v x : i <= length q -> outside x ->
  EmplaceInFallback (spl q) i (resolve has v x) = Done (spl (firstn i q ++ arg_value x :: skipn i q)).
Proof.
  intros Hi Hx. unfold EmplaceInFallback. cbn [fallback spl]. replace (i <=? length q) with true by lia. cbn [require bind].
  now rewrite fetch_outside.
Qed.

Lemma emplace_spl q i x : has = true -> i <= length q -> outside x ->
  fv_emplace has cap (spl q) i x = Done (spl (firstn i q ++ arg_value x :: skipn i q), i, is_move x).
Proof.
  intros Hh Hi Hx. unfold fv_emplace, fv_size. rewrite fb_spl by assumption. cbn [fallback spl]. replace (i <=? length q) with true by lia.
  cbn [assert bind]. fold (spl q). rewrite grow_spl by assumption. cbn [bind]. now rewrite fb_emplace.
Qed.

Lemma emplace_full q i x : has = true -> i <= length q -> length q = cap -> outside x ->
  fv_emplace has cap (inl q) i x = Done (spl (firstn i q ++ arg_value x :: skipn i q), i, is_move x).
Proof.
  intros Hh Hi HL Hx. unfold fv_emplace. rewrite size_inl. replace (i <=? length q) with true by lia. cbn [assert bind].
  rewrite grow_full by assumption. cbn [bind]. now rewrite fb_emplace.
Qed.

Lemma append_cut {B} (q : list B) x : firstn (length q) q ++ x :: skipn (length q) q = q ++ [x].
Proof. now rewrite firstn_all, skipn_all. Qed.

Lemma push_spl q x : has = true -> outside x -> fv_push_back has cap (spl q) x = Done (spl (q ++ [arg_value x]), false).
Proof.
  intros Hh Hx. unfold fv_push_back. rewrite grow_spl by assumption. cbn [bind]. rewrite fb_emplace by (trivial; simpl; lia). cbn [bind spl fallback].
  now rewrite append_cut.
Qed.

Lemma push_full q x : has = true -> length q = cap -> outside x -> fv_push_back has cap (inl q) x = Done (spl (q ++ [arg_value x]), false).
Proof.
  intros Hh HL Hx. unfold fv_push_back. rewrite grow_full by assumption. cbn [bind]. rewrite fb_emplace by (trivial; simpl; lia). cbn [bind spl fallback].
  now rewrite append_cut.
Qed.

Lemma emplace_back_spl q x : has = true -> outside x -> fv_emplace_back has cap (spl q) x = Done (spl (q ++ [arg_value x]), is_move x).
Proof.
  intros Hh Hx. unfold fv_emplace_back. rewrite grow_spl by assumption. cbn [bind]. rewrite fb_emplace by (trivial; simpl; lia). cbn [bind spl fallback].
  now rewrite append_cut.
Qed.

Lemma emplace_back_full q x : has = true -> length q = cap -> outside x -> fv_emplace_back has cap (inl q) x = Done (spl (q ++ [arg_value x]), is_move x).
Proof.
  intros Hh HL Hx. unfold fv_emplace_back. rewrite grow_full by assumption. cbn [bind]. rewrite fb_emplace by (trivial; simpl; lia). cbn [bind spl fallback].
  now rewrite append_cut.
Qed.

(** *** Removal *)
Lemma clear_inl q : length q <= cap -> fv_clear has (inl q) = Done (inl []).
Proof.
  intros HL. unfold fv_clear. rewrite fb_inl. unfold count. cbn [m_size inl m_data fallback].
  pose proof (destroy_range_spec q [] (raws (cap - length q)) 0 (length q) eq_refl eq_refl) as D. simpl in D. rewrite D. cbn [bind].
  unfold inl. simpl. do 2 f_equal. rewrite <- repeat_app. f_equal. lia.
Qed.

Lemma pop_cells q x : length q < cap -> map Obj (q ++ [x]) ++ raws (cap - length (q ++ [x])) = map Obj q ++ Obj x :: raws (cap - length q - 1).
Proof. intros H. rewrite app_length, map_app, <- app_assoc. simpl. now replace (cap - (length q + 1)) with (cap - length q - 1) by lia. Qed.

Lemma pop_inl q x : length q < cap -> fv_pop_back has (inl (q ++ [x])) = Done (inl q).
Proof.
  intros HL. unfold fv_pop_back. rewrite fb_inl, empty_inl. replace (length (q ++ [x]) =? 0) with false by (rewrite app_length; simpl; lia).
  cbn [negb assert bind]. unfold count. cbn [m_size inl m_data fallback]. rewrite pop_cells by assumption.
  rewrite destroy_mid by (rewrite map_length, app_length; simpl; lia). cbn [bind]. unfold inl. do 2 f_equal.
  - f_equal. rewrite app_length. simpl. lia.
  - f_equal. symmetry. apply raws_S. lia.
Qed.

Lemma shrink_inl q1 q2 x : length (q1 ++ q2) <= cap -> q2 <> [] -> fv_resize_with has cap (inl (q1 ++ q2)) (length q1) x = Done (inl q1).
Proof.
  intros HL Hne. rewrite app_length in HL. assert (0 < length q2) by (destruct q2; [contradiction | simpl; lia]).
  unfold fv_resize_with. rewrite fb_inl. replace (cap <? length q1) with false by lia. rewrite andb_false_r.
  replace (length q1 <=? cap) with true by lia. cbn [assert bind]. unfold count. cbn [m_size inl m_data fallback].
  rewrite app_length. replace (length q1 + length q2 <? length q1) with false by lia. replace (length q1 <? length q1 + length q2) with true by lia.
  rewrite map_app, <- app_assoc. rewrite destroy_range_spec by (rewrite map_length; lia). cbn [bind]. unfold inl. do 3 f_equal.
  rewrite <- repeat_app. f_equal. lia.
Qed.

Lemma erase_range_inl q1 q2 q3 : q2 <> [] -> length (q1 ++ q2 ++ q3) <= cap ->
  fv_erase_range has cap dflt (inl (q1 ++ q2 ++ q3)) (length q1) (length q1 + length q2) = Done (inl (q1 ++ q3), length q1).
Proof.
  intros Hne HL. assert (0 < length q2) by (destruct q2; [contradiction | simpl; lia]).
  unfold fv_erase_range. rewrite fb_inl, size_inl. cbv zeta. replace (length q1 =? length q1 + length q2) with false by lia.
  replace (length q1 <? length q1 + length q2) with true by lia. replace (length q1 + length q2 <=? length (q1 ++ q2 ++ q3)) with true by (rewrite !app_length; lia).
  cbn [assert bind]. unfold count. cbn [m_size inl m_data fallback]. rewrite !map_app, <- !app_assoc.
  replace (length q1 + length q2 - length q1) with (length q2) by lia.
  replace (length (q1 ++ q2 ++ q3) - (length q1 + length q2)) with (length q3) by (rewrite !app_length; lia).
  destruct (move_forward_spec q3 (map Obj q1) q2 (raws (cap - length (q1 ++ q2 ++ q3))) (length q1 + length q2) (length q1) Hne) as (g' & Lg & E);
    rewrite ?map_length; trivial.
  rewrite E. cbn [bind]. unfold fv_resize.
  replace (FV (Count (length (q1 ++ q2 ++ q3))) (map Obj q1 ++ map Obj q3 ++ map Obj g' ++ raws (cap - length (q1 ++ q2 ++ q3))) [])
    with (inl ((q1 ++ q3) ++ g')).
  2: { unfold inl. rewrite !map_app, <- !app_assoc. repeat rewrite app_length. rewrite Lg. f_equal; [f_equal; lia|]. do 4 f_equal. lia. }
  replace (length (q1 ++ q2 ++ q3) - length q2) with (length (q1 ++ q3)) by (rewrite !app_length; lia).
  rewrite shrink_inl; [reflexivity | rewrite !app_length in *; rewrite Lg; lia | destruct g'; [simpl in Lg; lia | discriminate]].
Qed.

Lemma erase_inl q1 y q3 : length (q1 ++ y :: q3) <= cap ->
  fv_erase has (inl (q1 ++ y :: q3)) (length q1) = Done (inl (q1 ++ q3), length q1).
Proof.
  intros HL. unfold fv_erase. rewrite size_inl, fb_inl. replace (length q1 <? length (q1 ++ y :: q3)) with true by (rewrite app_length; simpl; lia).
  cbn [assert bind]. cbv zeta. unfold count. cbn [m_size inl m_data fallback]. rewrite map_app, <- app_assoc. 
  replace (length (q1 ++ y :: q3) - (length q1 + 1)) with (length q3) by (rewrite !app_length; simpl; lia).
  destruct (move_forward_spec q3 (map Obj q1) [y] (raws (cap - length (q1 ++ y :: q3))) (length q1 + 1) (length q1)) as (g' & Lg & E);
    rewrite ?map_length; trivial; [discriminate|].
  cbn [map app] in E |- *. rewrite E. cbn [bind]. destruct g' as [|g [|]]; try discriminate Lg.
  replace (FV (Count (length (q1 ++ y :: q3))) (map Obj q1 ++ map Obj q3 ++ map Obj [g] ++ raws (cap - length (q1 ++ y :: q3))) [])
    with (inl ((q1 ++ q3) ++ [g])).
  2: { unfold inl. rewrite !map_app, <- !app_assoc. repeat rewrite app_length. simpl. f_equal; [f_equal; lia|]. do 4 f_equal. lia. }
  rewrite pop_inl; [reflexivity|]. rewrite !app_length in *. simpl in HL. lia.
Qed.

(** *** Resizing *)
Lemma enlarge_inl q n x : length q <= n <= cap -> outside x ->
  fv_resize_with has cap (inl q) n x = Done (inl (q ++ repeat (arg_value x) (n - length q))).
Proof.
  intros HL Hx. unfold fv_resize_with. rewrite fb_inl. replace (cap <? n) with false by lia. rewrite andb_false_r.
  replace (n <=? cap) with true by lia. cbn [assert bind]. unfold count. cbn [m_size inl m_data fallback].
  destruct (Nat.ltb_spec (length q) n) as [H|H].
  - rewrite (foreach_ext _ (fun m i => construct m i (arg_value x))) by (intros; now rewrite fetch_outside).
    pose proof (construct_range_spec (n - length q) (map Obj q) (raws (cap - n)) (arg_value x) (length q) n) as C. unfold construct_range in C.
    rewrite map_length in C. rewrite <- repeat_app in C. replace (n - length q + (cap - n)) with (cap - length q) in C by lia.
    rewrite C by lia. cbn [bind]. unfold inl. rewrite app_length, repeat_length, map_app, <- app_assoc. do 2 f_equal; [f_equal; lia|]. do 3 f_equal. lia.
  - assert (n = length q) by lia. subst n. rewrite Nat.ltb_irrefl, Nat.sub_diag. simpl. rewrite app_nil_r. reflexivity.
Qed.

Lemma resize_inl q n x : length q <= cap -> n <= cap -> outside x ->
  fv_resize_with has cap (inl q) n x = Done (inl (firstn n q ++ repeat (arg_value x) (n - length q))).
Proof.
  intros HL Hn Hx. destruct (Nat.lt_ge_cases n (length q)) as [H|H].
  - replace (n - length q) with 0 by lia. simpl. rewrite app_nil_r.
    assert (E : q = firstn n q ++ skipn n q) by (now rewrite firstn_skipn).
    assert (L1 : length (firstn n q) = n) by (rewrite firstn_length; lia).
    pose proof (shrink_inl (firstn n q) (skipn n q) x) as S. rewrite <- E, L1 in S. apply S; trivial.
    intros C. apply (f_equal (@length _)) in C. rewrite skipn_length in C. simpl in C. lia.
  - rewrite firstn_all2 by assumption. now apply enlarge_inl.
Qed.

Lemma fb_resize q n x v : outside x ->
  (o <- (if length q <? n then fetch v (resolve has v x) else Done None) ;; Done (FV FallbackInUse (raws cap) (vresize q n o)))
  = Done (spl (firstn n q ++ repeat (arg_value x) (n - length q))).
Proof.
  intros Hx. destruct (Nat.ltb_spec (length q) n) as [H|H].
  - rewrite fetch_outside by assumption. reflexivity.
  - cbn [bind]. unfold spl, vresize. replace (n - length q) with 0 by lia. reflexivity.
Qed.

Lemma resize_spl q n x : has = true -> outside x -> fv_resize_with has cap (spl q) n x = Done (spl (firstn n q ++ repeat (arg_value x) (n - length q))).
Proof.
  intros Hh Hx. unfold fv_resize_with. rewrite fb_spl by assumption. cbn [fallback spl m_size m_data]. fold (spl q). now apply fb_resize.
Qed.

Lemma resize_over q n x : has = true -> length q <= cap -> cap < n -> outside x ->
  fv_resize_with has cap (inl q) n x = Done (spl (firstn n q ++ repeat (arg_value x) (n - length q))).
Proof.
  intros Hh HL Hn Hx. unfold fv_resize_with. rewrite fb_inl. replace (cap <? n) with true by lia. rewrite andb_true_r. replace (if has then _ else _) with
    (v <- MoveStorageToFallback has (inl q) ;; o <- (if length (fallback v) <? n then fetch v (resolve has (inl q) x) else Done None) ;; Done (FV (m_size v) (m_data v) (vresize (fallback v) n o))) by (now rewrite Hh).
  rewrite spill_inl by assumption. cbn [bind fallback spl m_size m_data]. rewrite <- fb_resize with (v := spl q) by assumption.
  destruct x; simpl in Hx; try contradiction; reflexivity.
Qed.

Lemma reserve_inl q n : length q <= cap -> fv_reserve has cap (inl q) n = if n <=? cap then Done (inl q) else if has then Done (spl q) else Fault FAssert.
Proof.
  intros HL. unfold fv_reserve. destruct has eqn:Hh; rewrite <- ?Hh.
  - rewrite fb_inl. cbn [negb]. destruct (n <=? cap); [reflexivity|]. now rewrite spill_inl.
  - now destruct (n <=? cap).
Qed.

Lemma store_inl q i o : i < length q -> length q <= cap -> fv_store has (inl q) i o = Done (inl (upd q i o)).
Proof.
  intros Hi HL. unfold fv_store. rewrite fb_inl. cbn [m_data inl m_size fallback].
  assert (E : q = firstn i q ++ nth i q None :: skipn (S i) q).
  { rewrite <- (firstn_skipn i q) at 1. f_equal. apply (list_ext None).
    - cbn [length]. rewrite !skipn_length. lia.
    - intros [|k] Hk; rewrite nth_skipn; cbn [nth]; [now rewrite Nat.add_0_r|]. rewrite nth_skipn. f_equal; lia. }
  assert (L1 : length (firstn i q) = i) by (rewrite firstn_length; lia).
  assert (U : upd q i o = firstn i q ++ o :: skipn (S i) q) by (rewrite E at 1; apply upd_mid; lia).
  assert (EM : map (@Obj A) q = map Obj (firstn i q) ++ Obj (nth i q None) :: map Obj (skipn (S i) q)) by (rewrite E at 1; now rewrite map_app).
  unfold inl. rewrite upd_length, U, EM, <- app_assoc. cbn [app].
  rewrite assign_mid by (rewrite map_length; lia). cbn [bind]. now rewrite map_app, <- app_assoc.
Qed.
End Vector.
