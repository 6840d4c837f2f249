(** MemoryPool: representation of the pool by a row of slots. *)
From Verif Require Import CellProofs BitsetSpec BitsetBits BitsetProofs BitsetFind VectorCopy PoolModel.
Open Scope nat_scope.

#[export] Instance width64 : width 64. Proof. right; right; right; reflexivity. Qed.

(** ** Lists of rows *)
Lemma Forall2_nth {A B} (R : A -> B -> Prop) l l' j b : Forall2 R l l' -> nth_error l' j = Some b -> exists a, nth_error l j = Some a /\ R a b.
Proof. intros H. revert j. induction H as [|x y l l' Hx H IH]; intros [|j] E; try discriminate; simpl in *; [injection E as <-; eauto | auto]. Qed.
Lemma Forall2_upd {A B} (R : A -> B -> Prop) l l' j a b : Forall2 R l l' -> R a b -> Forall2 R (upd l j a) (upd l' j b).
Proof. intros H Hab. revert j. induction H as [|x y l l' Hx H IH]; intros [|j]; simpl; constructor; auto. Qed.

Lemma Forall2_len {A B} (R : A -> B -> Prop) l l' : Forall2 R l l' -> length l = length l'.
Proof. induction 1; simpl; congruence. Qed.

Section Rows.
Context {B : Type}.
Variable n : nat.
Implicit Types (ss : list (list B)).
Definition rows ss := Forall (fun s => length s = n) ss.

Lemma rows_length ss : rows ss -> length (concat ss) = length ss * n.
Proof. induction 1 as [|s ss H _ IH]; [reflexivity|]. cbn [concat length]. rewrite app_length, IH, H. lia. Qed.

Lemma rows_nth ss j s i : rows ss -> nth_error ss j = Some s -> i < n -> nth_error (concat ss) (j * n + i) = nth_error s i.
Proof.
  intros H. revert j. induction H as [|r ss H HS IH]; intros [|j] E Hi; try discriminate; cbn [concat nth_error] in *.
  - injection E as ->. rewrite nth_error_app1 by lia. f_equal; lia.
  - rewrite nth_error_app2 by lia. replace (S j * n + i - length r) with (j * n + i) by lia. now apply IH.
Qed.

Lemma rows_upd ss j s i x : rows ss -> nth_error ss j = Some s -> i < n -> upd (concat ss) (j * n + i) x = concat (upd ss j (upd s i x)).
Proof.
  intros H. revert j. induction H as [|r ss H HS IH]; intros [|j] E Hi; try discriminate; cbn [concat nth_error upd] in *.
  - injection E as ->. clear IH. cbn [Nat.mul Nat.add]. revert i s H Hi. generalize n as n0. intros n0 i s. revert n0 i. induction s as [|y s IHs]; intros n0 [|i] H Hi; cbn [app upd length] in *; try lia; [reflexivity|].
    f_equal. apply (IHs (length s)); lia.
  - rewrite <- IH by assumption. replace (S j * n + i) with (length r + (j * n + i)) by lia. clear. induction r as [|y r IHr]; [reflexivity|]. cbn [app length Nat.add upd]. now rewrite IHr.
Qed.

Lemma rows_split ss k x : 0 < n -> rows ss -> nth_error (concat ss) k = Some x -> exists s, nth_error ss (k / n) = Some s /\ nth_error s (k mod n) = Some x.
Proof.
  intros Hn H E. assert (k < length (concat ss)) by (apply nth_error_Some; congruence). rewrite rows_length in H0 by assumption.
  assert (k / n < length ss) by (apply Nat.div_lt_upper_bound; lia). destruct (nth_error ss (k / n)) as [s|] eqn:F; [|apply nth_error_None in F; lia].
  exists s. split; [reflexivity|]. pose proof (Nat.mod_upper_bound k n ltac:(lia)). rewrite <- (rows_nth ss (k / n) s (k mod n)) by assumption.
  rewrite <- E. f_equal. pose proof (Nat.div_mod_eq k n). lia.
Qed.

Lemma rows_row ss j s : rows ss -> nth_error ss j = Some s -> length s = n.
Proof. intros H E. unfold rows in H. rewrite Forall_forall in H. apply H. apply (nth_error_In _ _ E). Qed.

Lemma rows_set ss j s : rows ss -> length s = n -> rows (upd ss j s).
Proof. intros H Hs. apply Forall_upd; assumption. Qed.

Lemma rows_outside ss k : 0 < n -> rows ss -> length (concat ss) <= k -> length ss <= k / n.
Proof. intros Hn H Hk. rewrite rows_length in Hk by assumption. apply Nat.div_le_lower_bound; lia. Qed.
End Rows.

Lemma map_upd {A B} (f : A -> B) l i x : map f (upd l i x) = upd (map f l) i (f x).
Proof. revert i. induction l as [|y l IH]; intros [|i]; cbn [upd map]; [reflexivity.. |]. now rewrite IH. Qed.

(** ** One block *)
Section Pool.
Context {A : Type}.
Variable bs : nat.
Implicit Types (s : list (slot A)) (ss : list (list (slot A))) (b : @pblock A) (p : @pool A).

Definition cell_of (x : slot A) : cell A := match x with Live a => Obj (Some a) | _ => Raw end.

Definition blk b s : Prop :=
  length s = bs /\ occupiedEntryCount b = sp_count s /\ memory b = map cell_of s /\
  repr 64 (freeEntries b) (map vacant s) /\ repr 64 (occupiedEntries b) (map held s).

Lemma first_vacant_find s : first_vacant s = s_find (map vacant s) 0.
Proof.
  unfold s_find. rewrite map_length, Nat.sub_0_r. induction s as [|x s IH]; [reflexivity|]. cbn [first_vacant map length seq find]. unfold sbit at 1. cbn [nth].
  destruct (vacant x); [reflexivity|]. rewrite IH, <- seq_shift. clear. generalize (seq 0 (length s)) as l. intros l. induction l as [|i l IHl]; [reflexivity|].
  cbn [find map]. unfold sbit at 1 3. cbn [nth]. destruct (nth i (map vacant s) false); [reflexivity | exact IHl].
Qed.

Lemma count_le s : sp_count s <= length s.
Proof. unfold sp_count. induction s as [|x s IH]; [reflexivity|]. cbn [filter length]. destruct (held x); cbn [length]; lia. Qed.

Lemma count_full s : (sp_count s =? length s) = match first_vacant s with None => true | Some _ => false end.
Proof.
  induction s as [|x s IH]; [reflexivity|]. unfold sp_count in *. cbn [filter first_vacant length]. unfold held at 1. destruct (vacant x) eqn:E; cbn [negb].
  - pose proof (count_le s). unfold sp_count in *. apply Nat.eqb_neq. lia.
  - cbn [length]. change (S (length (filter held s)) =? S (length s)) with (length (filter held s) =? length s). rewrite IH. now destruct (first_vacant s).
Qed.

Lemma first_vacant_some s i : first_vacant s = Some i -> i < length s /\ nth_error s i = Some Vacant /\ forall j, j < i -> exists x, nth_error s j = Some x /\ held x = true.
Proof.
  revert i. induction s as [|x s IH]; intros i E; [discriminate|]. cbn [first_vacant] in E. destruct (vacant x) eqn:V.
  - injection E as <-. split; [simpl; lia|]. split; [destruct x; try discriminate; reflexivity | intros; lia].
  - destruct (first_vacant s) as [k|]; [|discriminate]. injection E as <-. destruct (IH k eq_refl) as (H1 & H2 & H3). split; [simpl; lia|]. split; [exact H2|].
    intros [|j] Hj; [exists x; unfold held; now rewrite V | apply H3; lia].
Qed.

Lemma first_vacant_app s t : first_vacant (s ++ t) = match first_vacant s with Some i => Some i | None => option_map (Nat.add (length s)) (first_vacant t) end.
Proof.
  induction s as [|x s IH]; [cbn; now destruct (first_vacant t)|]. cbn [app first_vacant length]. destruct (vacant x); [reflexivity|]. rewrite IH.
  destruct (first_vacant s); [reflexivity|]. now destruct (first_vacant t).
Qed.

(** Changing one slot changes the count by one. *)
Lemma count_upd s i x y : nth_error s i = Some x -> sp_count (upd s i y) + (if held x then 1 else 0) = sp_count s + (if held y then 1 else 0).
Proof.
  revert i. unfold sp_count. induction s as [|z s IH]; intros [|i] E; try discriminate; cbn [upd filter nth_error] in *.
  - injection E as ->. destruct (held x), (held y); cbn [length]; lia.
  - specialize (IH i E). destruct (held z); cbn [length]; lia.
Qed.

Lemma count_app s t : sp_count (s ++ t) = sp_count s + sp_count t.
Proof. unfold sp_count. now rewrite filter_app, app_length. Qed.
Lemma count_pos s i x : nth_error s i = Some x -> held x = true -> 0 < sp_count s.
Proof. intros E H. pose proof (count_upd s i x Vacant E) as C. rewrite H in C. cbn in C. lia. Qed.

(** Changing one slot of a block. *)
Lemma blk_upd b s i x y m f o :
  blk b s -> nth_error s i = Some x -> m = upd (memory b) i (cell_of y) ->
  repr 64 f (upd (map vacant s) i (vacant y)) -> repr 64 o (upd (map held s) i (held y)) ->
  forall c, c + (if held x then 1 else 0) = sp_count s + (if held y then 1 else 0) -> blk (PB (base b) c m f o) (upd s i y).
Proof.
  intros (HL & HC & HM & HF & HO) E Hm Hf Ho c Hc. split; [now rewrite upd_length|]. cbn [occupiedEntryCount memory freeEntries occupiedEntries].
  pose proof (count_upd s i x y E). split; [lia|]. split; [now rewrite Hm, HM, map_upd|]. rewrite !map_upd. auto.
Qed.

(** ** The pool *)
Definition rep p ss : Prop := m_blockSize p = bs /\ Forall2 blk (m_blocks p) ss.

Lemma rep_rows p ss : rep p ss -> rows bs ss.
Proof. intros (_ & H). induction H as [|b s l l' Hb H IH]; constructor; [apply Hb | exact IH]. Qed.
Lemma rep_len p ss : rep p ss -> length (m_blocks p) = length ss.
Proof. intros (_ & H). exact (Forall2_len _ _ _ H). Qed.

Lemma blk_fresh at_ : exists f o, Resize 64 empty bs true = Done f /\ Resize 64 empty bs false = Done o /\ blk (PB at_ 0 (repeat Raw bs) f o) (repeat Vacant bs).
Proof.
  destruct (Resize_repr 64 empty [] bs true (repr_empty 64)) as (f & Ef & Rf). destruct (Resize_repr 64 empty [] bs false (repr_empty 64)) as (o & Eo & Ro).
  exists f, o. split; [exact Ef|]. split; [exact Eo|]. unfold s_resize in *. rewrite firstn_nil, Nat.sub_0_r in *. cbn [app] in *.
  assert (M : forall (C : Type) (g : slot A -> C), map g (repeat Vacant bs) = repeat (g Vacant) bs) by (intros C g; generalize bs as k; induction k as [|k IH]; [reflexivity|]; cbn [repeat map]; now rewrite IH).
  split; [apply repeat_length|]. cbn [occupiedEntryCount memory freeEntries occupiedEntries]. rewrite !M. split; [|split; [reflexivity | split; assumption]].
  unfold sp_count. generalize bs as k. induction k as [|k IH]; [reflexivity | exact IH].
Qed.

Lemma AllocateBlock_rep p ss at_ : rep p ss -> exists b, AllocateBlock p at_ = Done (MP bs (m_blocks p ++ [b])) /\ base b = at_ /\ blk b (repeat Vacant bs).
Proof.
  intros (HB & H). destruct (blk_fresh at_) as (f & o & Ef & Eo & Hb). unfold AllocateBlock. rewrite HB, Ef, Eo. cbn [bind].
  eexists. split; [reflexivity|]. split; [reflexivity | exact Hb].
Qed.

(** The search. *)
Fixpoint room ss (i : nat) : option (nat * nat) :=
  match ss with [] => None | s :: r => match first_vacant s with Some k => Some (i, k) | None => room r (i + 1) end end.

Lemma find_room_rep l ss i : Forall2 blk l ss -> find_room bs l i = Done (room ss i).
Proof.
  intros H. revert i. induction H as [|b s l ss (HL & HC & HM & HF & HO) H IH]; intros i; [reflexivity|]. cbn [find_room room].
  rewrite HC, <- HL at 1. rewrite count_full, (FindFirst_repr 64 _ _ HF), <- first_vacant_find. destruct (first_vacant s); [reflexivity | apply IH].
Qed.

Lemma room_some ss i j k : room ss i = Some (j, k) -> exists s, i <= j /\ nth_error ss (j - i) = Some s /\ first_vacant s = Some k /\ forall m r, m < j - i -> nth_error ss m = Some r -> first_vacant r = None.
Proof.
  revert i. induction ss as [|s ss IH]; intros i E; [discriminate|]. cbn [room] in E. destruct (first_vacant s) as [k'|] eqn:F.
  - injection E as <- <-. exists s. rewrite Nat.sub_diag. repeat split; auto; intros; lia.
  - destruct (IH _ E) as (s' & H1 & H2 & H3 & H4). exists s'. split; [lia|]. replace (j - i) with (S (j - (i + 1))) by lia. split; [exact H2|]. split; [exact H3|].
    intros [|m] r Hm Er; [injection Er as <-; exact F | apply (H4 m); [lia | exact Er]].
Qed.

Lemma room_vacant ss i : rows bs ss -> first_vacant (concat ss) = option_map (fun '(j, k) => (j - i) * bs + k) (room ss i).
Proof.
  intros H. revert i. induction H as [|s ss HL H IH]; intros i; [reflexivity|]. cbn [concat room]. rewrite first_vacant_app. destruct (first_vacant s) as [k|] eqn:F.
  - cbn. f_equal. lia.
  - rewrite (IH (i + 1)). destruct (room ss (i + 1)) as [[j k]|] eqn:E; [|reflexivity]. cbn. destruct (room_some _ _ _ _ E) as (_ & Hj & _). f_equal. replace (j - i) with (S (j - (i + 1))) by lia. cbn [Nat.mul]. lia.
Qed.

(** Acting on one entry. *)
Lemma act p ss j s b i : rep p ss -> nth_error ss j = Some s -> nth_error (m_blocks p) j = Some b -> forall b' y, blk b' (upd s i y) -> i < bs ->
  exists p', (l <- vset (m_blocks p) j b' ;; Done (MP (m_blockSize p) l)) = Done p' /\ rep p' (upd ss j (upd s i y)) /\ m_blocks p' = upd (m_blocks p) j b'.
Proof.
  intros (HB & H) E Eb b' y Hb' Hi. rewrite vset_done by (apply nth_error_Some; congruence). cbn [bind]. eexists. split; [reflexivity|]. split; [|reflexivity].
  split; [exact HB|]. cbn [m_blocks]. apply Forall2_upd; assumption.
Qed.

Definition bases p : list N := map base (m_blocks p).
Variable stride : N.
(** The address of entry [i] in blocks placed at [bl]. *)
Definition place (bl : list N) (i : nat) : N := (nth (i / bs) bl 0 + N.of_nat (i mod bs) * stride)%N.

Hypothesis bs_pos : 0 < bs.

Lemma place_at bl j k a : k < bs -> nth_error bl j = Some a -> place bl (j * bs + k) = (a + N.of_nat k * stride)%N.
Proof.
  intros Hk E. unfold place. replace ((j * bs + k) / bs) with j by (rewrite Nat.add_comm, Nat.div_add, (Nat.div_small k bs); lia).
  replace ((j * bs + k) mod bs) with k by (rewrite Nat.add_comm, Nat.mod_add, Nat.mod_small; lia). now rewrite (nth_error_nth _ _ _ E).
Qed.

Lemma bases_upd p j b b' l : nth_error (m_blocks p) j = Some b -> base b' = base b -> l = upd (m_blocks p) j b' -> map base l = bases p.
Proof. intros E EB ->. rewrite map_upd, EB. apply upd_id. now apply map_nth_error. Qed.

(** Marking a vacant entry as taken. *)
Lemma take_entry p ss j s k x : rep p ss -> nth_error ss j = Some s -> nth_error s k = Some Vacant -> x = Deferred ->
  exists b p', nth_error (m_blocks p) j = Some b /\ 
  (b <- vget (m_blocks p) j ;;
   f <- ResetBit 64 (freeEntries b) k ;;
   o <- Set_ 64 (occupiedEntries b) k true ;;
   l <- vset (m_blocks p) j (PB (base b) (occupiedEntryCount b + 1) (memory b) f o) ;;
   Done (MP (m_blockSize p) l, j * m_blockSize p + k, address stride b k)) = Done (p', j * bs + k, place (bases p) (j * bs + k)) /\ rep p' (upd ss j (upd s k x)) /\ bases p' = bases p.
Proof.
  intros R E V ->. pose proof R as (HB & H). destruct (Forall2_nth _ _ _ _ _ H E) as (b & Eb & Hb). exists b. pose proof Hb as (HL & HC & HM & HF & HO).
  assert (Hk : k < bs) by (rewrite <- HL; apply nth_error_Some; congruence).
  rewrite (vget_some _ _ _ Eb). cbn [bind]. unfold ResetBit.
  destruct (Set_done 64 _ _ k false HF) as (f & Ef & Rf); [rewrite map_length; lia|]. destruct (Set_done 64 _ _ k true HO) as (o & Eo & Ro); [rewrite map_length; lia|].
  rewrite Ef, Eo. cbn [bind].
  destruct (act p ss j s b k R E Eb (PB (base b) (occupiedEntryCount b + 1) (memory b) f o) Deferred) as (p' & Ep & Rp & Mp); [|assumption|].
  - apply (blk_upd b s k Vacant Deferred); auto; [|rewrite HC; cbn; lia]. rewrite HM. symmetry. apply upd_id. rewrite (map_nth_error _ _ _ V). reflexivity.
  - destruct (vset _ _ _) as [l|]; [|discriminate]. cbn [bind] in *. injection Ep as <-. exists (MP (m_blockSize p) l). split; [exact Eb|]. split; [|split; [exact Rp|]].
    + f_equal. rewrite HB. f_equal. unfold bases. rewrite (place_at _ j k (base b)); [reflexivity | assumption | now apply map_nth_error].
    + apply (bases_upd p j b _ _ Eb) with (2 := Mp). reflexivity.
Qed.

Lemma Allocate_defer_rep p ss at_ : rep p ss -> let (l, i) := sp_take bs (concat ss) Deferred in
  exists p' ss', Allocate_defer stride p at_ = Done (p', i, place (bases p') i) /\ rep p' ss' /\ concat ss' = l /\ bases p' = bases p ++ (if length ss * bs <=? i then [at_] else []) /\ nth_error (concat ss') i = Some Deferred.
Proof.
  intros R. pose proof R as (HB & H). pose proof (rep_rows p ss R) as HR. unfold sp_take, Allocate_defer. rewrite HB, (find_room_rep _ _ 0 H). cbn [bind].
  pose proof (room_vacant ss 0 HR) as V. destruct (room ss 0) as [[j k]|] eqn:EF; cbn [option_map] in V; rewrite V.
  - destruct (room_some _ _ _ _ EF) as (s & _ & Es & Fs & _). rewrite Nat.sub_0_r in *. destruct (first_vacant_some _ _ Fs) as (Hk & Vk & _).
    rewrite (rows_row bs ss j s HR Es) in Hk. cbn [bind]. destruct (take_entry p ss j s k Deferred R Es Vk eq_refl) as (b & p' & Eb & E & Rp & Bp). rewrite E.
    assert (j < length ss) by (apply nth_error_Some; congruence). assert (k < length s) by (apply nth_error_Some; congruence).
    exists p', (upd ss j (upd s k Deferred)). rewrite Bp. split; [reflexivity|]. split; [exact Rp|]. split; [symmetry; now apply rows_upd|].
    split; [|rewrite (rows_nth bs _ j (upd s k Deferred)), nth_error_upd, Nat.eqb_refl].
    + assert (j * bs + k < length ss * bs) by (assert (S j * bs <= length ss * bs) by (apply Nat.mul_le_mono_r; lia); lia).
      replace (length ss * bs <=? j * bs + k) with false by lia. now rewrite app_nil_r.
    + now replace (k <? length s) with true by lia.
    + apply rows_set; [assumption|]. rewrite upd_length. exact (rows_row bs ss j s HR Es).
    + rewrite nth_error_upd, Nat.eqb_refl. now replace (j <? length ss) with true by lia.
    + assumption.
  - destruct (AllocateBlock_rep p ss at_ R) as (b & Ea & Eb & Hb). rewrite Ea. cbn [bind]. rewrite (rep_len p ss R).
    assert (R1 : rep (MP bs (m_blocks p ++ [b])) (ss ++ [repeat Vacant bs])) by (split; [reflexivity|]; cbn [m_blocks]; apply Forall2_app; [exact H | constructor; [exact Hb | constructor]]).
    assert (Es : nth_error (ss ++ [repeat (@Vacant A) bs]) (length ss) = Some (repeat Vacant bs)) by (rewrite nth_error_app2, Nat.sub_diag by lia; reflexivity).
    assert (Vk : nth_error (repeat (@Vacant A) bs) 0 = Some Vacant) by (destruct bs; [lia | reflexivity]).
    destruct (take_entry _ _ (length ss) _ 0 Deferred R1 Es Vk eq_refl) as (b' & p' & Eb' & E & Rp & Bp). cbn [m_blockSize m_blocks] in E. cbn [m_blockSize m_blocks]. rewrite E.
    exists p', (upd (ss ++ [repeat Vacant bs]) (length ss) (upd (repeat Vacant bs) 0 Deferred)). rewrite Nat.add_0_r, (rows_length bs ss HR), Bp. split; [reflexivity|]. split; [exact Rp|].
    replace (upd (ss ++ [repeat Vacant bs]) (length ss) (upd (repeat Vacant bs) 0 Deferred)) with (ss ++ [upd (repeat (@Vacant A) bs) 0 Deferred]) by (symmetry; apply upd_mid; reflexivity).
    assert (C : concat (ss ++ [upd (repeat (@Vacant A) bs) 0 Deferred]) = concat ss ++ Deferred :: repeat Vacant (bs - 1)).
    { rewrite concat_app. cbn [concat]. rewrite app_nil_r. f_equal. destruct bs as [|k]; [lia|]. cbn [repeat upd]. now rewrite Nat.sub_succ, Nat.sub_0_r. }
    rewrite C. split; [reflexivity|]. split.
    + unfold bases. cbn [m_blocks]. rewrite map_app, Nat.leb_refl. cbn [map]. now rewrite Eb.
    + rewrite nth_error_app2 by (rewrite rows_length with (n := bs) by assumption; lia). rewrite (rows_length bs ss HR), Nat.sub_diag. reflexivity.
Qed.

(** Acting on the object of an entry. *)
Lemma on_cell_rep p ss i x y f : rep p ss -> nth_error (concat ss) i = Some x -> held x = held y -> vacant x = vacant y ->
  (forall m k, nth_error m k = Some (cell_of x) -> f m k = Done (upd m k (cell_of y))) ->
  exists p' ss', on_cell p i f = Done p' /\ rep p' ss' /\ concat ss' = upd (concat ss) i y /\ bases p' = bases p.
Proof.
  intros R E HH HV Hf. pose proof R as (HB & H). pose proof (rep_rows p ss R) as HR. destruct (rows_split bs ss i x bs_pos HR E) as (s & Es & Ex).
  destruct (Forall2_nth _ _ _ _ _ H Es) as (b & Eb & Hb). pose proof Hb as (HL & HC & HM & HF & HO). unfold on_cell. rewrite HB, (vget_some _ _ _ Eb). cbn [bind].
  rewrite Hf by (rewrite HM; now apply map_nth_error). cbn [bind]. pose proof (Nat.mod_upper_bound i bs ltac:(lia)).
  assert (M : forall (g : slot A -> bool), g x = g y -> upd (map g s) (i mod bs) (g y) = map g s) by (intros g G; apply upd_id; rewrite <- G; now apply map_nth_error).
  destruct (act p ss (i / bs) s b (i mod bs) R Es Eb (PB (base b) (occupiedEntryCount b) (upd (memory b) (i mod bs) (cell_of y)) (freeEntries b) (occupiedEntries b)) y) as (p' & Ep & Rp & Mp); [|assumption|].
  - apply (blk_upd b s (i mod bs) x y); auto; [rewrite M | rewrite M | rewrite HC, HH]; auto.
  - destruct (vset _ _ _) as [l|]; [|discriminate]. cbn [bind] in *. injection Ep as <-. rewrite HB in *. exists (MP bs l), (upd ss (i / bs) (upd s (i mod bs) y)). split; [reflexivity|]. split; [exact Rp|]. split.
    + rewrite <- (rows_upd bs) by assumption. f_equal. pose proof (Nat.div_mod_eq i bs). lia.
    + apply (bases_upd p (i / bs) b _ _ Eb) with (2 := Mp). reflexivity.
Qed.

Lemma construct_at (m : list (cell A)) k o : nth_error m k = Some Raw -> construct m k o = Done (upd m k (Obj o)).
Proof. intros E. unfold construct. now rewrite E. Qed.
Lemma destroy_at_live (m : list (cell A)) k o : nth_error m k = Some (Obj o) -> destroy m k = Done (upd m k Raw).
Proof. intros E. unfold destroy. now rewrite E. Qed.

Lemma user_construct_rep p ss i a : rep p ss -> nth_error (concat ss) i = Some Deferred ->
  exists p' ss', user_construct p i a = Done p' /\ rep p' ss' /\ concat ss' = upd (concat ss) i (Live a) /\ bases p' = bases p.
Proof. intros R E. apply (on_cell_rep p ss i Deferred (Live a)); auto. intros m k Em. now apply construct_at. Qed.
Lemma user_destroy_rep p ss i a : rep p ss -> nth_error (concat ss) i = Some (Live a) ->
  exists p' ss', user_destroy p i = Done p' /\ rep p' ss' /\ concat ss' = upd (concat ss) i Deferred /\ bases p' = bases p.
Proof. intros R E. apply (on_cell_rep p ss i (Live a) Deferred); auto. intros m k Em. exact (destroy_at_live m k _ Em). Qed.

Lemma Allocate_rep p ss a at_ : rep p ss -> let (l, i) := sp_take bs (concat ss) (Live a) in
  exists p' ss', Allocate stride p a at_ = Done (p', i, place (bases p') i) /\ rep p' ss' /\ concat ss' = l /\ bases p' = bases p ++ (if length ss * bs <=? i then [at_] else []).
Proof.
  intros R. pose proof (Allocate_defer_rep p ss at_ R) as D. unfold sp_take in *. unfold Allocate.
  destruct (first_vacant (concat ss)) as [i|]; destruct D as (p1 & ss1 & -> & R1 & C1 & B1 & N1); cbn [bind];
    destruct (user_construct_rep p1 ss1 _ a R1 N1) as (p2 & ss2 & -> & R2 & C2 & B2); cbn [bind]; rewrite <- B2; exists p2, ss2; (split; [reflexivity|]); (split; [exact R2|]); rewrite B2; (split; [|exact B1]); rewrite C2, C1.
  - apply upd_upd.
  - apply upd_mid. reflexivity.
Qed.

Lemma pointer_rep p ss j k s : rep p ss -> nth_error ss j = Some s -> k < bs ->
  GetAllocatedPointer stride p j k = if held (nth k s Vacant) then Done (place (bases p) (j * bs + k)) else Fault FAssert.
Proof.
  intros R E Hk. pose proof R as (HB & H). destruct (Forall2_nth _ _ _ _ _ H E) as (b & Eb & Hb). pose proof Hb as (HL & HC & HM & HF & HO).
  unfold GetAllocatedPointer. replace (j <? length (m_blocks p)) with true by (symmetry; apply Nat.ltb_lt; apply nth_error_Some; congruence). cbn [assert bind].
  rewrite (vget_some _ _ _ Eb). cbn [bind]. rewrite (Test_repr 64 _ _ k HO), map_length, HL. replace (k <? bs) with true by lia. cbn [bind].
  unfold sbit. change false with (held (@Vacant A)) at 1. rewrite map_nth. destruct (held (nth k s Vacant)); [|reflexivity]. cbn [assert bind]. f_equal.
  rewrite (place_at _ j k (base b)); [reflexivity | assumption | unfold bases; now apply map_nth_error].
Qed.

Lemma Retrieve_rep p ss i : rep p ss ->
  RetrieveFromIndex stride p i = match nth_error (concat ss) i with Some x => if held x then Done (place (bases p) i) else Fault FAssert | None => Fault FAssert end.
Proof.
  intros R. pose proof R as (HB & H). pose proof (rep_rows p ss R) as HR. unfold RetrieveFromIndex, split_index. rewrite HB. replace (bs =? 0) with false by lia. cbn [negb require bind].
  destruct (nth_error (concat ss) i) as [x|] eqn:E.
  - destruct (rows_split bs ss i x bs_pos HR E) as (s & Es & Ex). rewrite (pointer_rep p ss _ _ s R Es) by (apply Nat.mod_upper_bound; lia).
    rewrite (nth_error_nth _ _ _ Ex). replace (i / bs * bs + i mod bs) with i by (pose proof (Nat.div_mod_eq i bs); lia). reflexivity.
  - apply nth_error_None in E. pose proof (rows_outside bs ss i bs_pos HR E). unfold GetAllocatedPointer. rewrite (rep_len p ss R). now replace (i / bs <? length ss) with false by lia.
Qed.

Lemma release_rep p ss i : rep p ss -> nth_error (concat ss) i = Some Deferred ->
  exists p' ss', release p (i / bs) (i mod bs) = Done p' /\ rep p' ss' /\ concat ss' = upd (concat ss) i Vacant /\ bases p' = bases p.
Proof.
  intros R E. pose proof R as (HB & H). pose proof (rep_rows p ss R) as HR. destruct (rows_split bs ss i _ bs_pos HR E) as (s & Es & Ex).
  destruct (Forall2_nth _ _ _ _ _ H Es) as (b & Eb & Hb). pose proof Hb as (HL & HC & HM & HF & HO). unfold release. rewrite (vget_some _ _ _ Eb). cbn [bind].
  pose proof (count_pos s _ _ Ex eq_refl). rewrite HC. replace (0 <? sp_count s) with true by lia. cbn [assert bind]. unfold ResetBit.
  pose proof (Nat.mod_upper_bound i bs ltac:(lia)).
  destruct (Set_done 64 _ _ (i mod bs) true HF) as (f & Ef & Rf); [rewrite map_length; lia|]. destruct (Set_done 64 _ _ (i mod bs) false HO) as (o & Eo & Ro); [rewrite map_length; lia|].
  rewrite Ef, Eo. cbn [bind].
  destruct (act p ss (i / bs) s b (i mod bs) R Es Eb (PB (base b) (sp_count s - 1) (memory b) f o) Vacant) as (p' & Ep & Rp & Mp); [|assumption|].
  - apply (blk_upd b s (i mod bs) Deferred Vacant); auto; [|cbn; lia]. rewrite HM. symmetry. apply upd_id. rewrite (map_nth_error _ _ _ Ex). reflexivity.
  - rewrite Ep. exists p', (upd ss (i / bs) (upd s (i mod bs) Vacant)). split; [reflexivity|]. split; [exact Rp|]. split.
    + rewrite <- (rows_upd bs) by assumption. f_equal. pose proof (Nat.div_mod_eq i bs). lia.
    + apply (bases_upd p (i / bs) b _ _ Eb) with (2 := Mp). reflexivity.
Qed.

Lemma Free_rep p ss i a : rep p ss -> nth_error (concat ss) i = Some (Live a) ->
  exists p' ss', Free stride p i = Done p' /\ rep p' ss' /\ concat ss' = upd (concat ss) i Vacant /\ bases p' = bases p.
Proof.
  intros R E. pose proof (Retrieve_rep p ss i R) as P. rewrite E in P. cbn [held vacant negb] in P. unfold RetrieveFromIndex in P. unfold Free.
  destruct (user_destroy_rep p ss i a R E) as (p1 & ss1 & E1 & R1 & C1 & B1). unfold user_destroy in E1.
  pose proof R as (HB & _). unfold split_index in *. rewrite HB in *. replace (bs =? 0) with false in * by lia. cbn [negb require bind] in *. rewrite P. cbn [bind]. rewrite E1. cbn [bind].
  assert (N1 : nth_error (concat ss1) i = Some Deferred) by (rewrite C1, nth_error_upd, Nat.eqb_refl; replace (i <? length (concat ss)) with true; [reflexivity|]; symmetry; apply Nat.ltb_lt, nth_error_Some; congruence).
  destruct (release_rep p1 ss1 i R1 N1) as (p2 & ss2 & E2 & R2 & C2 & B2). rewrite E2. exists p2, ss2. split; [reflexivity|]. split; [exact R2|]. split; [rewrite C2, C1; apply upd_upd | congruence].
Qed.

Lemma Free_refused p ss i : rep p ss -> (nth_error (concat ss) i = None \/ nth_error (concat ss) i = Some Vacant) -> Free stride p i = Fault FAssert.
Proof.
  intros R E. pose proof (Retrieve_rep p ss i R) as P. unfold Free, RetrieveFromIndex in *.
  destruct (split_index p i) as [[j k]|] eqn:S; cbn [bind] in *; [|destruct E as [E|E]; rewrite E in P; injection P as ->; reflexivity].
  assert (F : GetAllocatedPointer stride p j k = Fault FAssert) by (destruct E as [E|E]; rewrite E in P; exact P). now rewrite F.
Qed.

Lemma Free_nodestruction_rep p ss i : rep p ss -> nth_error (concat ss) i = Some Deferred ->
  exists p' ss', Free_nodestruction p i = Done p' /\ rep p' ss' /\ concat ss' = upd (concat ss) i Vacant /\ bases p' = bases p.
Proof.
  intros R E. unfold Free_nodestruction, split_index. pose proof R as (HB & _). rewrite HB. replace (bs =? 0) with false by lia. cbn [negb require bind].
  exact (release_rep p ss i R E).
Qed.
End Pool.
