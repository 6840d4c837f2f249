(** The primitive operations on signals act on lists of slots with a position: the slots before the position count as called. *)
From Coq Require Import Permutation.
From Verif Require Import CellModel CellProofs VectorModel VectorProofs VectorHistory VectorCopy SignalSpec SignalModel PoolProofs.
Open Scope nat_scope.

(** *** m_slots *)
Definition hv (v : fvec nat) (q : list (option nat)) : Prop := (v = inl 1 q /\ length q <= 1) \/ v = spl 1 q.

Lemma hv_size v q : hv v q -> fv_size true v = length q.
Proof. intros [(-> & _)| ->]; [apply size_inl | reflexivity]. Qed.
Lemma hv_empty v q : hv v q -> fv_empty true v = (length q =? 0).
Proof. intros [(-> & _)| ->]; [apply empty_inl | reflexivity]. Qed.
Lemma hv_load v q i : hv v q -> i < length q -> fv_load true v i = Done (nth i q None).
Proof. intros [(-> & _)| ->] H; [now apply load_inl |]. unfold fv_load. cbn. unfold vget. destruct (nth_error q i) eqn:E; [now rewrite (nth_error_nth _ _ _ E) | apply nth_error_None in E; lia]. Qed.
Lemma hv_at v q i : hv v q -> i < length q -> fv_at true v i = Done (nth i q None).
Proof. intros H Hi. unfold fv_at. rewrite (hv_size v q H). replace (i <? length q) with true by lia. cbn [assert bind]. now apply hv_load. Qed.
Lemma hv_back v q : hv v q -> q <> [] -> fv_back true v = Done (nth (length q - 1) q None).
Proof.
  intros H Hq. unfold fv_back. rewrite (hv_empty v q H), (hv_size v q H). destruct q; [contradiction|]. cbn [length Nat.eqb negb assert bind]. apply hv_load; [exact H | cbn [length]; lia].
Qed.
Lemma hv_store v q i o : hv v q -> i < length q -> exists v', fv_store true v i o = Done v' /\ hv v' (upd q i o).
Proof.
  intros [(-> & L)| ->] H.
  - rewrite store_inl by assumption. eexists. split; [reflexivity|]. left. split; [reflexivity | now rewrite upd_length].
  - unfold fv_store. cbn. rewrite vset_done by assumption. cbn [bind]. eexists. split; [reflexivity|]. now right.
Qed.
Lemma hv_pop v q : hv v q -> q <> [] -> exists v', fv_pop_back true v = Done v' /\ hv v' (removelast q).
Proof.
  intros [(-> & L)| ->] H.
  - destruct q as [|x [|y q]]; [contradiction | | cbn [length] in L; lia]. exists (inl 1 []). split; [exact (pop_inl true 1 [] x ltac:(cbn; lia)) | left; split; [reflexivity | cbn; lia]].
  - unfold fv_pop_back. cbn [VectorProofs.spl m_size IsUsingFallback andb fallback m_data]. destruct q; [contradiction|]. eexists. split; [reflexivity|]. now right.
Qed.
Lemma hv_emplace v q a : hv v q -> exists v', fv_emplace_back true 1 v (ByMove a) = Done (v', true) /\ hv v' (q ++ [Some a]).
Proof.
  intros [(-> & L)| ->].
  - destruct (Nat.eq_dec (length q) 1) as [F|F].
    + rewrite emplace_back_full by (auto; exact I). eexists. split; [reflexivity|]. now right.
    + rewrite emplace_back_inl by (try exact I; lia). eexists. split; [reflexivity|]. left. split; [reflexivity|]. rewrite app_length. cbn. lia.
  - rewrite emplace_back_spl by (auto; exact I). eexists. split; [reflexivity|]. now right.
Qed.
Lemma hv_clear v q : hv v q -> exists v', fv_clear true v = Done v' /\ hv v' [].
Proof. intros [(-> & L)| ->]; [rewrite clear_inl by assumption | rewrite clear_spl by reflexivity]; eexists; (split; [reflexivity|]); [left; split; [reflexivity | cbn; lia] | now right]. Qed.
Lemma hv_new : hv (fv_new 1) [].
Proof. left. split; [reflexivity | cbn; lia]. Qed.
Lemma hv_move v q i j : hv v q -> i < length q -> j < length q -> exists v', move_ptr v i j = Done v' /\ hv v' (if i =? j then q else upd (upd q i (nth j q None)) j None).
Proof.
  intros H Hi Hj. unfold move_ptr. destruct (Nat.eqb_spec i j) as [->|D]; [eauto|]. rewrite (hv_load v q j H Hj). cbn [bind]. destruct (hv_store v q i (nth j q None) H Hi) as (v1 & -> & H1). cbn [bind].
  apply (hv_store v1 _ j None H1). now rewrite upd_length.
Qed.
(** What the vector owns. *)
Lemma hv_owns v q id : hv v q -> existsb (cell_holds id) (m_data v) || existsb (value_holds id) (fallback v) = existsb (value_holds id) q.
Proof.
  intros [(-> & L)| ->].
  - cbn [VectorProofs.inl m_data fallback existsb]. rewrite orb_false_r, existsb_app. assert (R : forall n, existsb (cell_holds id) (repeat Raw n) = false) by (induction n; [reflexivity | exact IHn]). rewrite R, orb_false_r.
    clear. induction q as [|o q IH]; [reflexivity|]. cbn [map existsb]. now rewrite IH.
  - reflexivity.
Qed.

(** *** Lists *)
Lemma nth_error_removelast {B} (l : list B) k : nth_error (removelast l) k = if k <? length l - 1 then nth_error l k else None.
Proof.
  revert k. induction l as [|x [|y l] IH]; intros k; [now destruct k | now destruct k |]. change (removelast (x :: y :: l)) with (x :: removelast (y :: l)). cbn [length].
  destruct k as [|k]; [now cbn|]. cbn [nth_error]. rewrite IH. cbn [length]. replace (S k <? S (S (length l)) - 1) with (k <? S (length l) - 1) by (destruct (Nat.ltb_spec k (S (length l) - 1)), (Nat.ltb_spec (S k) (S (S (length l)) - 1)); lia). reflexivity.
Qed.
Lemma removelast_length {B} (l : list B) : length (removelast l) = length l - 1.
Proof. induction l as [|x [|y l] IH]; [reflexivity | reflexivity |]. change (removelast (x :: y :: l)) with (x :: removelast (y :: l)). cbn [length] in *. lia. Qed.
Lemma list_eq_nth {B} (l l' : list B) : length l = length l' -> (forall k, k < length l -> nth_error l k = nth_error l' k) -> l = l'.
Proof.
  revert l'. induction l as [|x l IH]; intros [|y l'] HL H; try discriminate; [reflexivity|]. pose proof (H 0 ltac:(cbn; lia)) as E. injection E as ->. f_equal. apply IH; [now injection HL|]. intros k Hk. exact (H (S k) ltac:(cbn; lia)).
Qed.
Lemma removelast_map {B C} (f : B -> C) l : removelast (map f l) = map f (removelast l).
Proof. induction l as [|x [|y l] IH]; [reflexivity | reflexivity |]. change (removelast (x :: y :: l)) with (x :: removelast (y :: l)). cbn [map] in *. rewrite <- IH. reflexivity. Qed.
Lemma removelast_upd_last {B} (l : list B) x : removelast (upd l (length l - 1) x) = removelast l.
Proof.
  apply list_eq_nth; [now rewrite !removelast_length, upd_length|]. intros k Hk. rewrite removelast_length, upd_length in Hk. rewrite !nth_error_removelast, upd_length, nth_error_upd.
  replace (k =? length l - 1) with false by lia. reflexivity.
Qed.

(** Removing position [j] from a list of which the first [P] count as called. *)
Definition swap_pop (L : list nat) (j : nat) : list nat := removelast (upd L j (nth (length L - 1) L 0)).
Definition a_remove (L : list nat) (P j : nat) : list nat * nat :=
  if (length L <=? P) || (P =? 0) || (P <=? j) then (swap_pop L j, P) else (swap_pop (upd L j (nth (P - 1) L 0)) (P - 1), P - 1).
Definition it_of (P : nat) : N := if P =? 0 then (two64 - 1)%N else (N.of_nat P - 1)%N.

Lemma swap_pop_length L j : length (swap_pop L j) = length L - 1.
Proof. unfold swap_pop. now rewrite removelast_length, upd_length. Qed.
Lemma a_remove_length L P j : length (fst (a_remove L P j)) = length L - 1.
Proof. unfold a_remove. destruct (_ || _ || _); cbn [fst]; rewrite swap_pop_length; now rewrite ?upd_length. Qed.
Lemma swap_pop_nth L j k : j < length L -> nth_error (swap_pop L j) k = if k <? length L - 1 then (if k =? j then nth_error L (length L - 1) else nth_error L k) else None.
Proof.
  intros Hj. unfold swap_pop. rewrite nth_error_removelast, upd_length, nth_error_upd. destruct (k <? length L - 1) eqn:E; [|reflexivity]. destruct (Nat.eqb_spec k j); [|reflexivity]. replace (j <? length L) with true by lia.
  destruct (nth_error L (length L - 1)) eqn:F; [now rewrite (nth_error_nth _ _ _ F) | apply nth_error_None in F; lia].
Qed.

(** *** The world *)
Definition astate := list (option (list nat * nat)).
Definition sig_rep (o : option sigobj) (a : option (list nat * nat)) : Prop :=
  match o, a with
  | None, None => True
  | Some x, Some (L, P) => hv (m_slots x) (map Some L) /\ m_slotIterator x = it_of P
  | _, _ => False
  end.
Definition indexed (h : list slotobj) (S : astate) : Prop := forall i L P k id, nth_error S i = Some (Some (L, P)) -> nth_error L k = Some id -> nth_error h id = Some (Slot i k).
Definition wrep (w : world) (S : astate) : Prop := Forall2 sig_rep (sigs w) S /\ indexed (heap w) S /\ Forall (fun c => c = Raw) (leaked w).
Definition bounded (w : world) : Prop := (N.of_nat (length (heap w)) + 4 < two64)%N.

Lemma rep_sig w S s L P : wrep w S -> nth_error S s = Some (Some (L, P)) -> exists x, sig_at w s = Done x /\ hv (m_slots x) (map Some L) /\ m_slotIterator x = it_of P /\ nth_error (sigs w) s = Some (Some x).
Proof.
  intros (H & _) E. destruct (Forall2_nth _ _ _ _ _ H E) as ([x|] & N & R); [|contradiction]. exists x. unfold sig_at. rewrite (vget_some _ _ _ N). cbn [bind]. destruct R as (R1 & R2). auto.
Qed.
Lemma put_rep w S s x L P : wrep w S -> s < length S -> hv (m_slots x) (map Some L) -> m_slotIterator x = it_of P ->
  sig_put w s x = Done (W (upd (sigs w) s (Some x)) (heap w) (leaked w) (trace w)) /\ Forall2 sig_rep (upd (sigs w) s (Some x)) (upd S s (Some (L, P))).
Proof.
  intros (H & _) Hs HV HI. unfold sig_put. rewrite vset_done by (rewrite (Forall2_len _ _ _ H); exact Hs). split; [reflexivity|]. apply Forall2_upd; [exact H|]. split; assumption.
Qed.

Lemma slots_nodup h S s L P : indexed h S -> nth_error S s = Some (Some (L, P)) -> NoDup L.
Proof.
  intros H E. apply NoDup_nth_error. intros i j Hi Hij. destruct (nth_error L i) as [id|] eqn:Ei; [|apply nth_error_None in Ei; lia]. symmetry in Hij.
  pose proof (H _ _ _ _ _ E Ei) as A1. pose proof (H _ _ _ _ _ E Hij) as A2. congruence.
Qed.
Lemma slots_size h S s L P : indexed h S -> nth_error S s = Some (Some (L, P)) -> length L <= length h.
Proof.
  intros H E. rewrite <- (seq_length (length h) 0). apply NoDup_incl_length; [exact (slots_nodup h S s L P H E)|]. intros id HI. apply In_nth_error in HI. destruct HI as (k & N).
  apply in_seq. assert (id < length h); [|lia]. apply nth_error_Some. rewrite (H _ _ _ _ _ E N). discriminate.
Qed.

(** *** Disconnection *)
Lemma nth_map_some L k : k < length L -> nth k (map Some L) None = Some (nth k L 0).
Proof. intros H. rewrite (nth_indep _ None (Some 0)) by (now rewrite map_length). apply map_nth. Qed.
Lemma set_slot_done w id f x : nth_error (heap w) id = Some x -> set_slot w (Some id) f = Done (W (sigs w) (upd (heap w) id (f x)) (leaked w) (trace w)).
Proof. intros H. unfold set_slot. rewrite (vget_some _ _ _ H). cbn [bind]. rewrite vset_done by (apply nth_error_Some; congruence). reflexivity. Qed.
Lemma nth_at {B} (l : list B) k d : k < length l -> nth_error l k = Some (nth k l d).
Proof. intros H. destruct (nth_error l k) eqn:E; [now rewrite (nth_error_nth _ _ _ E) | apply nth_error_None in E; lia]. Qed.

Lemma indexed_swap h S s L P j : indexed h S -> nth_error S s = Some (Some (L, P)) -> j < length L -> forall P', indexed (upd h (nth (length L - 1) L 0) (Slot s j)) (upd S s (Some (swap_pop L j, P'))).
Proof.
  intros H E Hj P' i L2 P2 k id EN NK. set (z := nth (length L - 1) L 0) in *. assert (Nz : nth_error L (length L - 1) = Some z) by (apply nth_at; lia). pose proof (H _ _ _ _ _ E Nz) as Hz.
  assert (Lz : z < length h) by (apply nth_error_Some; congruence). rewrite nth_error_upd in EN. destruct (Nat.eqb_spec i s) as [->|D].
  - assert (Hs0 : s < length S) by (apply nth_error_Some; congruence). replace (s <? length S) with true in EN by lia. cbn [andb] in EN. injection EN as <- <-. rewrite swap_pop_nth in NK by exact Hj. destruct (Nat.ltb_spec k (length L - 1)) as [LK|LK]; [|discriminate]. destruct (Nat.eqb_spec k j) as [->|D].
    + rewrite Nz in NK. injection NK as <-. rewrite nth_error_upd, Nat.eqb_refl. now replace (z <? length h) with true by lia.
    + pose proof (H _ _ _ _ _ E NK) as HK. rewrite nth_error_upd. destruct (Nat.eqb_spec id z) as [->|]; [exfalso|exact HK]. rewrite Hz in HK. injection HK as HK. lia.
  - pose proof (H _ _ _ _ _ EN NK) as HK. rewrite nth_error_upd. destruct (Nat.eqb_spec id z) as [->|]; [exfalso|exact HK]. rewrite Hz in HK. injection HK as HK HK'. lia.
Qed.

Lemma pop_moved L j : j < length L -> removelast (if j =? length L - 1 then map Some L else upd (upd (map Some L) j (Some (nth (length L - 1) L 0))) (length L - 1) None) = map Some (swap_pop L j).
Proof.
  intros Hj. unfold swap_pop. destruct (Nat.eqb_spec j (length L - 1)) as [->|D].
  - now rewrite removelast_map, removelast_upd_last.
  - replace (length L - 1) with (length (upd (map Some L) j (Some (nth (length L - 1) L 0))) - 1) at 2 by (now rewrite upd_length, map_length). now rewrite removelast_upd_last, <- map_upd, removelast_map.
Qed.

Lemma disconnect_rep w S s L P j id : wrep w S -> bounded w -> nth_error S s = Some (Some (L, P)) -> nth_error L j = Some id ->
  exists w', sig_disconnect w s id = Done w' /\ wrep w' (upd S s (Some (a_remove L P j))) /\ length (heap w') = length (heap w) /\ trace w' = trace w ++ [EDisconnect id] /\ leaked w' = leaked w.
Proof.
  intros R HB ES EL. pose proof R as (HF & HI & HL). destruct (rep_sig w S s L P R ES) as (x & EX & HV & IT & _). assert (Hj : j < length L) by (apply nth_error_Some; congruence). assert (Hs : s < length S) by (apply nth_error_Some; congruence).
  pose proof (slots_size _ _ _ _ _ HI ES) as HN. unfold bounded in HB. unfold sig_disconnect. rewrite EX. cbn [bind]. rewrite (vget_some _ _ _ (HI _ _ _ _ _ ES EL)). cbn [bind slot_index slot_signal].
  rewrite (hv_size _ _ HV), map_length. replace (j <? length L) with true by lia. rewrite Nat.eqb_refl. cbn [assert bind]. rewrite IT.
  set (z := nth (length L - 1) L 0). assert (Nz : nth_error L (length L - 1) = Some z) by (apply nth_at; lia). pose proof (HI _ _ _ _ _ ES Nz) as Hz.
  assert (BR : ((N.of_nat (length L) - 1 <=? it_of P) || (it_of P <? N.of_nat j))%N = (length L <=? P) || (P =? 0) || (P <=? j)).
  { unfold it_of. destruct (Nat.eqb_spec P 0) as [->|NP]; [replace (length L <=? 0) with false by lia; cbn [orb]; apply orb_true_iff; left; apply N.leb_le; lia|].
    apply eq_true_iff_eq. rewrite !orb_true_iff, N.leb_le, N.ltb_lt, !Nat.leb_le. split; intros [H|H]; lia. }
  rewrite BR. unfold a_remove. destruct ((length L <=? P) || (P =? 0) || (P <=? j)) eqn:BC.
  - rewrite (hv_empty _ _ HV), map_length. replace (length L =? 0) with false by lia. cbn [negb assert bind].
    destruct (hv_move _ _ j (length L - 1) HV ltac:(rewrite map_length; lia) ltac:(rewrite map_length; lia)) as (v1 & -> & H1). cbn [bind]. rewrite nth_map_some in H1 by lia.
    assert (Q : nth j (if j =? length L - 1 then map Some L else upd (upd (map Some L) j (Some z)) (length L - 1) None) None = Some z).
    { destruct (Nat.eqb_spec j (length L - 1)) as [->|D]; [rewrite nth_map_some by lia; reflexivity|]. rewrite nth_upd. replace (j =? length L - 1) with false by lia. cbn [andb]. rewrite nth_upd, Nat.eqb_refl, map_length. now replace (j <? length L) with true by lia. }
    rewrite (hv_load _ _ j H1) by (destruct (j =? length L - 1); rewrite ?upd_length, map_length; lia). fold z in H1. fold z. rewrite Q. cbn [bind]. rewrite (set_slot_done _ _ _ _ Hz). cbn [bind set_index slot_signal].
    destruct (hv_pop _ _ H1) as (v2 & -> & H2). { intros K. apply (f_equal (@length _)) in K. destruct (j =? length L - 1); rewrite ?upd_length, map_length in K; cbn [length] in K; lia. }
    cbn [bind]. unfold z in H2. rewrite pop_moved in H2 by exact Hj. fold z in H2.
    destruct (put_rep w S s (Sig v2 (it_of P)) (swap_pop L j) P R Hs H2 eq_refl) as (E & F). unfold sig_put in *. cbn [sigs heap leaked trace] in *. rewrite vset_done by (rewrite (Forall2_len _ _ _ HF); exact Hs). cbn [bind].
    eexists. split; [reflexivity|]. cbn [log sigs heap leaked trace]. split; [|split; [apply upd_length | split; reflexivity]]. split; [exact F|]. split; [|exact HL]. apply (indexed_swap _ _ _ _ P); assumption.
  - apply orb_false_iff in BC. destruct BC as (BC & B3). apply orb_false_iff in BC. destruct BC as (B1 & B2). apply Nat.leb_gt in B1, B3. apply Nat.eqb_neq in B2.
    assert (EI : it_of P = N.of_nat (P - 1)) by (unfold it_of; replace (P =? 0) with false by lia; lia). rewrite EI, Nat2N.id. set (k := P - 1) in *. assert (Hk : k < length L - 1) by lia.
    replace (k <? length L) with true by lia. cbn [assert bind]. destruct (hv_move _ _ j k HV ltac:(rewrite map_length; lia) ltac:(rewrite map_length; lia)) as (v1 & -> & H1). cbn [bind]. rewrite nth_map_some in H1 by lia.
    set (y := nth k L 0) in *. assert (Ny : nth_error L k = Some y) by (apply nth_at; lia). pose proof (HI _ _ _ _ _ ES Ny) as Hy. set (q1 := if j =? k then map Some L else upd (upd (map Some L) j (Some y)) k None) in *.
    assert (Lq1 : length q1 = length L) by (unfold q1; destruct (j =? k); rewrite ?upd_length, map_length; reflexivity).
    assert (Q : nth j q1 None = Some y).
    { unfold q1. destruct (Nat.eqb_spec j k) as [E|D]; [rewrite nth_map_some by lia; now rewrite E|]. rewrite nth_upd. replace (j =? k) with false by lia. cbn [andb]. rewrite nth_upd, Nat.eqb_refl, map_length. now replace (j <? length L) with true by lia. }
    rewrite (hv_load _ _ j H1) by lia. rewrite Q. cbn [bind]. rewrite (set_slot_done _ _ _ _ Hy). cbn [bind set_index slot_signal]. rewrite (hv_empty _ _ H1), Lq1. replace (length L =? 0) with false by lia. cbn [negb assert bind].
    destruct (hv_move _ _ k (length L - 1) H1 ltac:(lia) ltac:(lia)) as (v2 & -> & H2). cbn [bind]. replace (k =? length L - 1) with false in H2 by lia.
    set (L1 := upd L j y). assert (LL1 : length L1 = length L) by apply upd_length. set (h1 := upd (heap w) y (Slot s j)).
    assert (Nz1 : nth (length L1 - 1) L1 0 = z). { rewrite LL1. unfold L1. rewrite nth_upd. replace (length L - 1 =? j) with false by lia. reflexivity. }
    assert (Qz : nth (length L - 1) q1 None = Some z).
    { unfold q1. destruct (Nat.eqb_spec j k) as [E|D]; [rewrite nth_map_some by lia; reflexivity|]. rewrite !nth_upd. replace (length L - 1 =? k) with false by lia. replace (length L - 1 =? j) with false by lia. cbn [andb]. now rewrite nth_map_some by lia. }
    rewrite Qz in H2. rewrite (hv_load _ _ k H2) by (rewrite !upd_length; lia).
    assert (Qk : nth k (upd (upd q1 k (Some z)) (length L - 1) None) None = Some z).
    { rewrite nth_upd. replace (k =? length L - 1) with false by lia. cbn [andb]. rewrite nth_upd, Nat.eqb_refl. now replace (k <? length q1) with true by lia. }
    rewrite Qk. cbn [bind].
    assert (Hzy : z <> y). { intros K. rewrite K in Hz. rewrite Hz in Hy. injection Hy as Hy. lia. }
    assert (Hz1 : nth_error h1 z = Some (Slot s (length L - 1))). { unfold h1. rewrite nth_error_upd. replace (z =? y) with false by lia. exact Hz. }
    change (upd (heap w) y (set_index j (Slot s k))) with h1. rewrite (set_slot_done (W (sigs w) h1 (leaked w) (trace w)) z (set_index k) _ Hz1). cbn [bind set_index slot_signal sigs heap leaked trace].
    destruct (hv_pop _ _ H2) as (v3 & -> & H3). { intros K. apply (f_equal (@length _)) in K. rewrite !upd_length in K. cbn [length] in K. lia. }
    cbn [bind].
    assert (QF : removelast (upd (upd q1 k (Some z)) (length L - 1) None) = map Some (swap_pop L1 k)).
    { replace (length L - 1) with (length (upd q1 k (Some z)) - 1) at 1 by (rewrite upd_length; lia). rewrite removelast_upd_last. unfold swap_pop. rewrite Nz1, <- removelast_map. f_equal. rewrite map_upd. unfold L1. rewrite map_upd. unfold q1.
      destruct (Nat.eqb_spec j k) as [E|D]; [|now rewrite upd_upd]. rewrite E, upd_upd. reflexivity. }
    rewrite QF in H3.
    assert (DE : dec (N.of_nat k) = it_of k). { unfold dec, it_of. destruct (Nat.eqb_spec k 0) as [->|]; [reflexivity|]. replace (N.of_nat k =? 0)%N with false by (symmetry; apply N.eqb_neq; lia). reflexivity. }
    rewrite DE.
    destruct (put_rep w S s (Sig v3 (it_of k)) (swap_pop L1 k) k R Hs H3 eq_refl) as (E & F). unfold sig_put in *. cbn [sigs heap leaked trace] in *. rewrite vset_done by (rewrite (Forall2_len _ _ _ HF); exact Hs). cbn [bind].
    eexists. split; [reflexivity|]. cbn [log sigs heap leaked trace]. split; [|split; [unfold h1; rewrite !upd_length; reflexivity | split; reflexivity]]. split; [exact F|]. split; [|exact HL].
    intros i L2 P2 m id2 EN NK. change (nth_error (upd h1 z (Slot s k)) id2 = Some (Slot i m)). rewrite nth_error_upd in EN. assert (Lz : z < length h1) by (apply nth_error_Some; congruence). assert (Ly : y < length (heap w)) by (apply nth_error_Some; congruence). destruct (Nat.eqb_spec i s) as [->|D].
    + assert (Hs0 : s < length S) by (apply nth_error_Some; congruence). replace (s <? length S) with true in EN by lia. cbn [andb] in EN. injection EN as <- <-. rewrite swap_pop_nth in NK by lia. rewrite LL1 in NK. destruct (Nat.ltb_spec m (length L - 1)) as [LK|LK]; [|discriminate].
      destruct (Nat.eqb_spec m k) as [->|D].
      * unfold L1 in NK. rewrite nth_error_upd in NK. replace (length L - 1 =? j) with false in NK by lia. cbn [andb] in NK. rewrite Nz in NK. injection NK as <-. rewrite nth_error_upd, Nat.eqb_refl. now replace (z <? length h1) with true by lia.
      * unfold L1 in NK. rewrite nth_error_upd in NK. destruct (Nat.eqb_spec m j) as [->|D'].
        -- replace (j <? length L) with true in NK by lia. cbn [andb] in NK. injection NK as <-. rewrite nth_error_upd. replace (y =? z) with false by lia. unfold h1. rewrite nth_error_upd, Nat.eqb_refl. now replace (y <? length (heap w)) with true by lia.
        -- pose proof (HI _ _ _ _ _ ES NK) as HK. rewrite nth_error_upd. destruct (Nat.eqb_spec id2 z) as [->|]; [exfalso; rewrite Hz in HK; injection HK as HK; lia|].
           unfold h1. rewrite nth_error_upd. destruct (Nat.eqb_spec id2 y) as [->|]; [exfalso; rewrite Hy in HK; injection HK as HK; lia | exact HK].
    + pose proof (HI _ _ _ _ _ EN NK) as HK. rewrite nth_error_upd. destruct (Nat.eqb_spec id2 z) as [->|]; [exfalso; rewrite Hz in HK; injection HK as HK HK'; lia|].
      unfold h1. rewrite nth_error_upd. destruct (Nat.eqb_spec id2 y) as [->|]; [exfalso; rewrite Hy in HK; injection HK as HK HK'; lia | exact HK].
Qed.

(** *** The other operations *)
Lemma connect_rep w S s L P : wrep w S -> bounded w -> nth_error S s = Some (Some (L, P)) ->
  exists w', sig_connect w s = Done (w', length (heap w)) /\ wrep w' (upd S s (Some (L ++ [length (heap w)], if (P =? 0) || (length L <? P) then length L + 2 else P))) /\
    length (heap w') = length (heap w) + 1 /\ trace w' = trace w ++ [EConnect s (length (heap w))].
Proof.
  intros R HB ES. pose proof R as (HF & HI & HL). destruct (rep_sig w S s L P R ES) as (x & EX & HV & IT & _). assert (Hs : s < length S) by (apply nth_error_Some; congruence). pose proof (slots_size _ _ _ _ _ HI ES) as HN. unfold bounded in HB.
  unfold sig_connect. rewrite EX. cbn [bind]. rewrite (hv_size _ _ HV), map_length, IT. destruct (hv_emplace _ _ (length (heap w)) HV) as (v1 & -> & H1). cbn [bind].
  assert (NE : map Some L ++ [Some (length (heap w))] <> []) by (destruct L; discriminate). rewrite (hv_back _ _ H1 NE), (hv_size _ _ H1). rewrite app_length, map_length. cbn [length]. replace (length L + 1 - 1) with (length L) by lia. rewrite app_nth2 by (rewrite map_length; lia). rewrite map_length, Nat.sub_diag. cbn [nth bind].
  change (map Some L ++ [Some (length (heap w))]) with (map Some L ++ map Some [length (heap w)]) in H1. rewrite <- map_app in H1.
  set (P' := if (P =? 0) || (length L <? P) then length L + 2 else P).
  assert (EI : (if (N.of_nat (length L) <=? it_of P)%N then N.of_nat (length L + 1) else it_of P) = it_of P').
  { unfold it_of, P'. destruct (Nat.eqb_spec P 0) as [->|NP].
    - cbn [orb]. replace (N.of_nat (length L) <=? two64 - 1)%N with true by (symmetry; apply N.leb_le; lia). replace (length L + 2 =? 0) with false by lia. lia.
    - cbn [orb]. destruct (Nat.ltb_spec (length L) P).
      + replace (N.of_nat (length L) <=? N.of_nat P - 1)%N with true by (symmetry; apply N.leb_le; lia). replace (length L + 2 =? 0) with false by lia. lia.
      + replace (N.of_nat (length L) <=? N.of_nat P - 1)%N with false by (symmetry; apply N.leb_gt; lia). now replace (P =? 0) with false by lia. }
  rewrite EI. destruct (put_rep w S s (Sig v1 (it_of P')) (L ++ [length (heap w)]) P' R Hs H1 eq_refl) as (_ & F). unfold sig_put. cbn [sigs heap leaked trace]. rewrite vset_done by (rewrite (Forall2_len _ _ _ HF); exact Hs). cbn [bind].
  eexists. split; [reflexivity|]. split; [|split; [apply app_length | reflexivity]]. split; [exact F|]. split; [|exact HL].
  intros i L2 P2 k id EN NK. change (nth_error (heap w ++ [Slot s (length L)]) id = Some (Slot i k)). rewrite nth_error_upd in EN. destruct (Nat.eqb_spec i s) as [->|D].
  - replace (s <? length S) with true in EN by lia. cbn [andb] in EN. injection EN as <- <-. destruct (Nat.lt_ge_cases k (length L)) as [LK|LK].
    + rewrite nth_error_app1 in NK by exact LK. pose proof (HI _ _ _ _ _ ES NK) as HK. rewrite nth_error_app1 by (apply nth_error_Some; congruence). exact HK.
    + rewrite nth_error_app2 in NK by exact LK. destruct (k - length L) as [|m] eqn:Em; [|destruct m; discriminate]. injection NK as <-. rewrite nth_error_app2, Nat.sub_diag by lia. cbn. do 2 f_equal. lia.
  - pose proof (HI _ _ _ _ _ EN NK) as HK. rewrite nth_error_app1 by (apply nth_error_Some; congruence). exact HK.
Qed.

Lemma clear_sig_rep w S s L P : wrep w S -> nth_error S s = Some (Some (L, P)) ->
  exists w', sig_clear w s = Done w' /\ wrep w' (upd S s (Some ([], 1))) /\ heap w' = heap w /\ trace w' = trace w ++ [EClear s].
Proof.
  intros R ES. pose proof R as (HF & HI & HL). destruct (rep_sig w S s L P R ES) as (x & EX & HV & IT & _). assert (Hs : s < length S) by (apply nth_error_Some; congruence).
  unfold sig_clear. rewrite EX. cbn [bind]. destruct (hv_clear _ _ HV) as (v1 & -> & H1). cbn [bind]. destruct (put_rep w S s (Sig v1 0) [] 1 R Hs H1 eq_refl) as (-> & F). cbn [bind]. eexists. split; [reflexivity|]. split; [|split; reflexivity].
  split; [exact F|]. split; [|exact HL]. intros i L2 P2 k id EN NK. rewrite nth_error_upd in EN. destruct (Nat.eqb_spec i s) as [->|D]; [|exact (HI _ _ _ _ _ EN NK)].
  replace (s <? length S) with true in EN by lia. cbn [andb] in EN. injection EN as <- <-. now destruct k.
Qed.

Lemma set_iterator_rep w S s L P f P' : wrep w S -> nth_error S s = Some (Some (L, P)) -> f (it_of P) = it_of P' ->
  exists w', set_iterator w s f = Done w' /\ wrep w' (upd S s (Some (L, P'))) /\ heap w' = heap w /\ trace w' = trace w.
Proof.
  intros R ES EF. pose proof R as (HF & HI & HL). destruct (rep_sig w S s L P R ES) as (x & EX & HV & IT & _). assert (Hs : s < length S) by (apply nth_error_Some; congruence).
  unfold set_iterator. rewrite EX. cbn [bind]. rewrite IT, EF. destruct (put_rep w S s (Sig (m_slots x) (it_of P')) L P' R Hs HV eq_refl) as (-> & F). eexists. split; [reflexivity|]. split; [|split; reflexivity].
  split; [exact F|]. split; [|exact HL]. intros i L2 P2 k id EN NK. rewrite nth_error_upd in EN. destruct (Nat.eqb_spec i s) as [->|D]; [|exact (HI _ _ _ _ _ EN NK)].
  replace (s <? length S) with true in EN by lia. cbn [andb] in EN. injection EN as <- <-. exact (HI _ _ _ _ _ ES NK).
Qed.

Lemma existsb_some (L : list nat) id : existsb (value_holds id) (map Some L) = true <-> In id L.
Proof.
  rewrite existsb_exists. split.
  - intros (o & HI & HE). apply in_map_iff in HI. destruct HI as (k & <- & HI). cbn in HE. apply Nat.eqb_eq in HE. now subst.
  - intros HI. exists (Some id). split; [now apply in_map | apply Nat.eqb_refl].
Qed.
Lemma owned_rep w S id : wrep w S -> (owned w id = true <-> exists s L P, nth_error S s = Some (Some (L, P)) /\ In id L).
Proof.
  intros (HF & _ & HL). unfold owned. rewrite orb_true_iff.
  assert (NL : existsb (cell_holds id) (leaked w) = false) by (induction HL as [|c l -> HL IH]; [reflexivity | exact IH]). rewrite NL. clear NL HL. split.
  - intros [H|H]; [|discriminate]. induction HF as [|o a l S' R HF IH]; [discriminate|]. cbn [existsb] in H. apply orb_true_iff in H. destruct H as [H|H].
    + exists 0. destruct o as [x|]; [|discriminate]. destruct a as [[L P]|]; [|contradiction]. destruct R as (R & _). rewrite (hv_owns _ _ _ R) in H. apply existsb_some in H. exists L, P. auto.
    + destruct (IH H) as (s & L & P & E & HI). exists (Datatypes.S s), L, P. auto.
  - intros (s & L & P & E & HI). left. revert s E. induction HF as [|o a l S' R HF IH]; intros [|s] E; try discriminate; cbn [existsb]; apply orb_true_iff.
    + injection E as ->. left. destruct o as [x|]; [|contradiction]. destruct R as (R & _). rewrite (hv_owns _ _ _ R). now apply existsb_some.
    + right. exact (IH s E).
Qed.

(** *** Actions *)
Inductive effect (h : nat) (S : astate) : action -> list event -> astate -> nat -> Prop :=
| ef_none id : (forall s L P, nth_error S s = Some (Some (L, P)) -> ~ In id L) -> effect h S (ADisconnect id) [] S h
| ef_disconnect s L P j id : nth_error S s = Some (Some (L, P)) -> nth_error L j = Some id -> effect h S (ADisconnect id) [EDisconnect id] (upd S s (Some (a_remove L P j))) h
| ef_connect s L P : nth_error S s = Some (Some (L, P)) ->
    effect h S (AConnect s) [EConnect s h] (upd S s (Some (L ++ [h], if (P =? 0) || (length L <? P) then length L + 2 else P))) (h + 1)
| ef_clear s L P : nth_error S s = Some (Some (L, P)) -> effect h S (AClear s) [EClear s] (upd S s (Some ([], 1))) h.

Definition valid (S : astate) (a : action) : Prop :=
  match a with ADisconnect _ => True | AConnect s | AClear s => exists p, nth_error S s = Some (Some p) | AEmit _ => False end.

Lemma action_rep w S a : wrep w S -> bounded w -> valid S a ->
  exists w' evs S', simple_action w a = Done w' /\ effect (length (heap w)) S a evs S' (length (heap w')) /\ wrep w' S' /\ trace w' = trace w ++ evs.
Proof.
  intros R HB HV. destruct a as [id|s|s|s]; cbn [valid simple_action] in *; [| | |contradiction].
  - unfold conn_disconnect, lock. destruct (owned w id) eqn:O.
    + apply (owned_rep w S id R) in O. destruct O as (s & L & P & ES & HI). apply In_nth_error in HI. destruct HI as (j & EJ). pose proof R as (_ & HX & _). rewrite (vget_some _ _ _ (HX _ _ _ _ _ ES EJ)). cbn [bind slot_signal].
      destruct (disconnect_rep w S s L P j id R HB ES EJ) as (w' & E & R' & HH & HT & _). exists w', [EDisconnect id], (upd S s (Some (a_remove L P j))). repeat split; auto; try apply R'. rewrite HH. now apply ef_disconnect.
    + exists w, [], S. repeat split; try apply R; [|now rewrite app_nil_r]. apply ef_none. intros s L P ES HI. assert (owned w id = true) by (apply (owned_rep w S id R); eauto). congruence.
  - destruct HV as ([L P] & ES). destruct (connect_rep w S s L P R HB ES) as (w' & E & R' & HH & HT). rewrite E. cbn [bind]. exists w', [EConnect s (length (heap w))]. eexists. split; [reflexivity|]. split; [rewrite HH; exact (ef_connect _ _ _ _ _ ES)|]. split; assumption.
  - destruct HV as ([L P] & ES). destruct (clear_sig_rep w S s L P R ES) as (w' & E & R' & HH & HT). exists w', [EClear s]. eexists. split; [exact E|]. split; [rewrite HH; exact (ef_clear _ _ _ _ _ ES)|]. split; assumption.
Qed.
Lemma sig_at_alive w S s x : wrep w S -> sig_at w s = Done x -> exists p, nth_error S s = Some (Some p).
Proof.
  intros (HF & _) E. unfold sig_at, vget in E. destruct (nth_error (sigs w) s) as [[y|]|] eqn:N; try discriminate. clear E. revert s N. induction HF as [|o a l S' R HF IH]; intros [|s] N; try discriminate; [|exact (IH s N)].
  injection N as ->. destruct a as [p|]; [|contradiction]. now exists p.
Qed.
Lemma action_valid w S a w' : wrep w S -> simple_action w a = Done w' -> match a with AEmit _ => True | _ => valid S a end.
Proof.
  intros R E. destruct a as [id|s|s|s]; cbn [valid simple_action] in *; auto.
  - unfold sig_connect in E. destruct (sig_at w s) as [x|] eqn:X; [|discriminate]. exact (sig_at_alive w S s x R X).
  - unfold sig_clear in E. destruct (sig_at w s) as [x|] eqn:X; [|discriminate]. exact (sig_at_alive w S s x R X).
Qed.
