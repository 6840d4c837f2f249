(** FixedBitset and HybridBitset simulate Bitset: the calls on the container agree with those on a std::vector while the capacity allows it. *)
From Verif Require Import Base CInt MathModel BitsetModel VectorModel CellProofs VectorProofs VectorCopy FixedBitsetModel.
Open Scope nat_scope.

(** [y] does what [x] does, or fails an assertion where [P] allows it. *)
Definition sim {A B} (P : Prop) (R : A -> B -> Prop) (x : outcome A) (y : outcome B) : Prop :=
  match x with
  | Done a => (exists b, y = Done b /\ R a b) \/ (y = Fault FAssert /\ P)
  | Fault FAssert => y = Fault FAssert
  | Fault _ => True
  end.

Lemma sim_done {A B} P (R : A -> B -> Prop) a b : R a b -> sim P R (Done a) (Done b).
Proof. intros H. left. eauto. Qed.

Lemma sim_refl {A} P (x : outcome A) : sim P eq x x.
Proof. destruct x as [a|[]]; simpl; auto. left. eauto. Qed.

Lemma sim_fault {A B} P (R : A -> B -> Prop) f : sim P R (Fault f) (Fault f).
Proof. destruct f; simpl; auto. Qed.

Lemma sim_bind {A B C D} P (R : A -> B -> Prop) (S : C -> D -> Prop) x y f g :
  sim P R x y -> (forall a b, R a b -> sim P S (f a) (g b)) -> sim P S (bind x f) (bind y g).
Proof.
  destruct x as [a|e]; cbn [bind].
  - intros [(b & -> & H)|[-> H]] K; cbn [bind]; [now apply K|].
    destruct (f a) as [c|[]]; simpl; auto.
  - intros H K. destruct e; simpl in *; auto. now rewrite H.
Qed.

Lemma sim_mono {A B} (P Q : Prop) (R S : A -> B -> Prop) x y : (P -> Q) -> (forall a b, R a b -> S a b) -> sim P R x y -> sim Q S x y.
Proof. intros HP HR. destruct x as [a|[]]; simpl; auto. intros [(b & E & H)|[E H]]; [left; eauto | right; auto]. Qed.

Lemma sim_foreach {A B} P (R : A -> B -> Prop) f g l : forall a b, R a b ->
  (forall i a b, In i l -> R a b -> sim P R (f a i) (g b i)) -> sim P R (foreach l f a) (foreach l g b).
Proof.
  induction l as [|i l IH]; intros a b H K; cbn [foreach]; [now apply sim_done|].
  apply sim_bind with R; [apply K; simpl; auto|]. intros a' b' H'. apply IH; [exact H'|]. intros j x y Hj. apply K. simpl. auto.
Qed.

(** The relation may depend on the number of turns made. *)
Lemma sim_foreach_k {A B} P f g l : forall (R : nat -> A -> B -> Prop) a b, R 0 a b ->
  (forall k a b, k < length l -> R k a b -> sim P (R (Datatypes.S k)) (f a (nth k l 0)) (g b (nth k l 0))) ->
  sim P (R (length l)) (foreach l f a) (foreach l g b).
Proof.
  induction l as [|i l IH]; intros R a b H K; cbn [foreach length]; [now apply sim_done|].
  apply sim_bind with (R 1); [apply (K 0); [simpl; lia | exact H]|].
  intros a' b' H'. apply (IH (fun k => R (Datatypes.S k))); [exact H'|]. intros k x y Hk. apply (K (Datatypes.S k)). simpl. lia.
Qed.

Lemma sim_assert {A B} P (R : A -> B -> Prop) c x y : (c = true -> sim P R x y) -> sim P R (assert c ;;; x) (assert c ;;; y).
Proof. intros H. destruct c; cbn; auto. Qed.

Lemma sim_if {A B} P (R : A -> B -> Prop) (c : bool) x x' y y' : sim P R x y -> sim P R x' y' -> sim P R (if c then x else x') (if c then y else y').
Proof. intros. destruct c; assumption. Qed.

Section P.
Variables (has : bool) (cap w : nat).
Implicit Types P : Prop.

(** The vector [v] holds the blocks [l]. What a spilled vector has in its inline storage does not matter. *)
Inductive wrep (l : list N) : fvec N -> Prop :=
| WInl : length l <= cap -> wrep l (inl cap (map Some l))
| WSpl : forall m, has = true -> wrep l (FV FallbackInUse m (map Some l)).

Definition brel (b : bitset) (g : fbitset) : Prop := wrep (blocks b) (fblocks g) /\ fcount g = bitCount b.

Lemma w_fits l v : wrep l v -> has = true \/ length l <= cap.
Proof. intros [H|m H]; auto. Qed.

Lemma w_size l v : wrep l v -> fv_size has v = length l.
Proof.
  intros [H|m H].
  - now rewrite size_inl, map_length.
  - unfold fv_size, IsUsingFallback. rewrite H. cbn. apply map_length.
Qed.

Lemma w_empty l v : wrep l v -> fv_empty has v = (length l =? 0).
Proof.
  intros [H|m H].
  - now rewrite empty_inl, map_length.
  - unfold fv_empty, IsUsingFallback. rewrite H. cbn. now rewrite map_length.
Qed.

Lemma w_load l v i : wrep l v -> i < length l -> fv_load has v i = Done (Some (nth i l 0%N)).
Proof.
  intros [H|m H] Hi.
  - rewrite (load_inl has cap _ i None) by (now rewrite map_length). f_equal. rewrite (nth_indep _ None (Some 0%N)) by (now rewrite map_length). apply map_nth.
  - unfold fv_load, IsUsingFallback. rewrite H. cbn. rewrite (vget_done _ _ None) by (now rewrite map_length). f_equal.
    rewrite (nth_indep _ None (Some 0%N)) by (now rewrite map_length). apply map_nth.
Qed.

Lemma map_upd {A B} (f : A -> B) l i x : map f (upd l i x) = upd (map f l) i (f x).
Proof. revert i; induction l as [|y l IH]; intros [|i]; cbn; f_equal; auto. Qed.

Lemma w_store l v i x : wrep l v -> i < length l -> exists v', fv_store has v i (Some x) = Done v' /\ wrep (upd l i x) v'.
Proof.
  intros [H|m H] Hi.
  - rewrite store_inl by (rewrite map_length; lia). eexists. split; [reflexivity|]. rewrite <- map_upd. constructor. now rewrite upd_length.
  - unfold fv_store, IsUsingFallback. rewrite H. cbn. rewrite vset_done by (now rewrite map_length). cbn. eexists. split; [reflexivity|].
    rewrite <- map_upd. now constructor.
Qed.

Lemma vget_out {A} (l : list A) i : length l <= i -> vget l i = Fault FUB.
Proof. intros H. unfold vget. apply nth_error_None in H. now rewrite H. Qed.
Lemma vset_out {A} (l : list A) i x : length l <= i -> vset l i x = Fault FUB.
Proof. intros H. unfold vset. destruct (Nat.ltb_spec i (length l)); [lia | reflexivity]. Qed.

Lemma iget_done l v i : wrep l v -> i < length l -> iget has v i = Done (nth i l 0%N).
Proof. intros H Hi. unfold iget. now rewrite (w_load l). Qed.
Lemma bget_done l v i : wrep l v -> i < length l -> bget has v i = Done (nth i l 0%N).
Proof. intros H Hi. unfold bget, fv_at. rewrite (w_size l) by assumption. destruct (Nat.ltb_spec i (length l)); [|lia]. cbn. now rewrite (w_load l). Qed.
Lemma bset_store l v i x : wrep l v -> i < length l -> bset has v i x = fv_store has v i (Some x).
Proof. intros H Hi. unfold bset, fv_set. rewrite (w_size l) by assumption. destruct (Nat.ltb_spec i (length l)); [reflexivity|lia]. Qed.

Lemma s_iget P l v i : wrep l v -> sim P eq (vget l i) (iget has v i).
Proof.
  intros H. destruct (Nat.lt_ge_cases i (length l)) as [L|L].
  - rewrite (vget_done _ _ 0%N), (iget_done l) by assumption. now apply sim_done.
  - now rewrite vget_out.
Qed.
Lemma s_bget P l v i : wrep l v -> sim P eq (vget l i) (bget has v i).
Proof.
  intros H. destruct (Nat.lt_ge_cases i (length l)) as [L|L].
  - rewrite (vget_done _ _ 0%N), (bget_done l) by assumption. now apply sim_done.
  - now rewrite vget_out.
Qed.
Lemma s_iset P l v i x : wrep l v -> sim P wrep (vset l i x) (iset has v i x).
Proof.
  intros H. destruct (Nat.lt_ge_cases i (length l)) as [L|L].
  - rewrite vset_done by assumption. destruct (w_store l v i x H L) as (v' & E & R). unfold iset. rewrite E. now apply sim_done.
  - now rewrite vset_out.
Qed.
Lemma s_bset P l v i x : wrep l v -> sim P wrep (vset l i x) (bset has v i x).
Proof.
  intros H. destruct (Nat.lt_ge_cases i (length l)) as [L|L].
  - rewrite vset_done by assumption. destruct (w_store l v i x H L) as (v' & E & R). rewrite (bset_store l) by assumption. rewrite E. now apply sim_done.
  - now rewrite vset_out.
Qed.

(** More blocks than the container can hold. *)
Definition overflow (n : nat) : Prop := has = false /\ cap < n.

Lemma map_repeat {A B} (f : A -> B) x n : map f (repeat x n) = repeat (f x) n.
Proof. induction n; cbn; f_equal; auto. Qed.

Lemma map_vresize (l : list N) n x : map Some (vresize l n x) = firstn n (map Some l) ++ repeat (Some x) (n - length (map Some l)).
Proof. unfold vresize. now rewrite map_app, firstn_map, map_repeat, map_length. Qed.

Lemma vresize_length {A} (l : list A) n x : length (vresize l n x) = n.
Proof. unfold vresize. rewrite app_length, firstn_length, repeat_length. lia. Qed.

Lemma s_resize P l v n x : wrep l v -> (overflow n -> P) -> sim P wrep (Done (vresize l n x)) (fv_resize_with has cap v n (ByCopy x)).
Proof.
  intros [H|m H] HP.
  - destruct (Nat.le_gt_cases n cap) as [L|L].
    + rewrite resize_inl by (rewrite ?map_length; simpl; auto). cbn [arg_value]. rewrite <- map_vresize. apply sim_done. constructor. now rewrite vresize_length.
    + destruct has eqn:Hh.
      * rewrite resize_over by (rewrite ?map_length; simpl; auto). cbn [arg_value]. rewrite <- map_vresize. apply sim_done. unfold spl. constructor. exact Hh.
      * right. split; [|apply HP; split; auto]. unfold fv_resize_with. rewrite fb_inl. cbn [andb].
        destruct (Nat.leb_spec n cap); [lia | reflexivity].
  - unfold fv_resize_with, IsUsingFallback. rewrite H. cbn [andb m_size fallback m_data]. rewrite map_length.
    assert (E : (o <- (if length l <? n then fetch (FV FallbackInUse m (map Some l)) (resolve true (FV FallbackInUse m (map Some l)) (ByCopy x)) else Done None) ;;
       Done (FV FallbackInUse m (vresize (map Some l) n o))) = Done (FV FallbackInUse m (map Some (vresize l n x)))).
    { rewrite map_vresize, map_length. destruct (Nat.ltb_spec n (length l)), (Nat.ltb_spec (length l) n); try lia; cbn; unfold vresize; rewrite map_length; try reflexivity;
      replace (n - length l) with 0 by lia; reflexivity. }
    rewrite E. apply sim_done. now constructor.
Qed.

Lemma s_push P l v x : wrep l v -> (overflow (length l + 1) -> P) -> sim P wrep (Done (l ++ [x])) (push has cap v x).
Proof.
  intros [H|m H] HP; unfold push.
  - destruct (Nat.le_gt_cases cap (length l)) as [L|L].
    + destruct has eqn:Hh.
      * rewrite push_full by (rewrite ?map_length; simpl; auto; lia). cbn. apply sim_done. unfold spl. replace (map Some l ++ [Some x]) with (map Some (l ++ [x])) by apply map_app.
        now constructor.
      * right. split; [|apply HP; split; [auto|lia]]. unfold fv_push_back, CheckFallbackOnGrow. cbn [bind count inl m_size].
        rewrite map_length. destruct (Nat.ltb_spec (length l) cap); [lia | reflexivity].
    + rewrite push_inl by (rewrite ?map_length; simpl; auto). cbn. apply sim_done. replace (map Some l ++ [Some x]) with (map Some (l ++ [x])) by apply map_app.
      constructor. rewrite app_length. simpl. lia.
  - unfold fv_push_back, CheckFallbackOnGrow, IsUsingFallback. rewrite H. cbn [bind andb m_size fallback resolve is_move]. unfold EmplaceInFallback. cbn [fallback m_size m_data]. rewrite Nat.leb_refl. cbn [require bind fetch].
    rewrite append_cut. apply sim_done. replace (map Some l ++ [Some x]) with (map Some (l ++ [x])) by apply map_app. now constructor.
Qed.

Lemma s_clear P l v : wrep l v -> sim P wrep (Done []) (fv_clear has v).
Proof.
  intros [H|m H].
  - rewrite clear_inl by (now rewrite map_length). apply sim_done. apply (WInl []). simpl. lia.
  - unfold fv_clear, IsUsingFallback. rewrite H. cbn. apply sim_done. now apply (WSpl []).
Qed.

Lemma w_new : wrep [] (fv_new cap).
Proof. unfold fv_new. rewrite new_inl. apply (WInl []). simpl. lia. Qed.

Lemma empty_rel : brel empty (fb_empty cap).
Proof. split; [apply w_new | reflexivity]. Qed.

(** ** Members *)
Notation rel := brel.

Lemma s_pair P l v n : wrep l v -> sim P rel (Done (mkB l n)) (Done (FB v n)).
Proof. intros H. apply sim_done. now split. Qed.

Lemma s_ResetExtraBits P b g : rel b g -> sim P rel (ResetExtraBits w b) (fb_ResetExtraBits has w g).
Proof.
  intros [H E]. unfold ResetExtraBits, fb_ResetExtraBits. rewrite (w_empty _ _ H), (w_size _ _ H), E.
  destruct (blocks b) as [|x0 r] eqn:Eb.
  - cbn [length Nat.eqb]. apply sim_done. split; [now rewrite Eb | exact E].
  - rewrite <- Eb in *. replace (length (blocks b) =? 0) with false by (rewrite Eb; reflexivity).
    change (fb_mask w (bitCount b)) with (GetLastBlockMask w b).
    apply sim_bind with eq; [apply sim_refl|]. intros m ? <-.
    unfold fv_back. rewrite (w_empty _ _ H), (w_size _ _ H). replace (length (blocks b) =? 0) with false by (rewrite Eb; reflexivity). cbn [negb assert bind].
    fold (iget has (fblocks g) (length (blocks b) - 1)).
    replace (o <- fv_load has (fblocks g) (length (blocks b) - 1) ;; x <- value o ;; v <- iset has (fblocks g) (length (blocks b) - 1) (N.land x m) ;; Done (FB v (bitCount b)))
      with (x <- iget has (fblocks g) (length (blocks b) - 1) ;; v <- iset has (fblocks g) (length (blocks b) - 1) (N.land x m) ;; Done (FB v (bitCount b)))
      by (unfold iget; now rewrite bind_assoc).
    apply sim_bind with eq; [now apply s_iget|]. intros x ? <-.
    apply sim_bind with wrep; [now apply s_iset|]. intros l v R. now apply s_pair.
Qed.

(** The number of blocks [Resize] asks for. *)
Lemma s_Resize P b g n d : rel b g -> (overflow (ComputeBlockCount w n) -> P) -> sim P rel (BitsetModel.Resize w b n d) (fb_Resize has cap w g n d).
Proof.
  intros [H E] HP. unfold BitsetModel.Resize, fb_Resize. rewrite (w_size _ _ H), E.
  apply sim_bind with wrep.
  2: { intros l v R. apply s_ResetExtraBits. now split. }
  destruct (_ && _ && _); [|now apply s_resize].
  destruct (length (blocks b) =? 0); [exact I|].
  set (fill := if d then fullBitMask w else 0%N).
  change (sim P wrep
    (l <- Done (vresize (blocks b) (ComputeBlockCount w n) fill) ;; m <- shl w (fullBitMask w) (GetBitIndex w (bitCount b)) ;; x <- vget l (length (blocks b) - 1) ;; vset l (length (blocks b) - 1) (N.lor x m))
    (v <- fv_resize_with has cap (fblocks g) (ComputeBlockCount w n) (ByCopy fill) ;; m <- shl w (fullBitMask w) (GetBitIndex w (bitCount b)) ;; x <- bget has v (length (blocks b) - 1) ;; bset has v (length (blocks b) - 1) (N.lor x m))).
  apply sim_bind with wrep; [now apply s_resize|]. intros l v R.
  apply sim_bind with eq; [apply sim_refl|]. intros m ? <-.
  apply sim_bind with eq; [now apply s_bget|]. intros x ? <-. now apply s_bset.
Qed.

Lemma s_make P n d : (overflow (ComputeBlockCount w n) -> P) -> sim P rel (make w n d) (fb_make has cap w n d).
Proof. intros. apply s_Resize; [apply empty_rel | assumption]. Qed.

Lemma s_Clear P b g : rel b g -> sim P rel (Done (BitsetModel.Clear b)) (fb_Clear has g).
Proof.
  intros [H E]. unfold fb_Clear, BitsetModel.Clear. change (sim P rel (l <- Done [] ;; Done (mkB l 0)) (v <- fv_clear has (fblocks g) ;; Done (FB v 0))).
  apply sim_bind with wrep; [now apply s_clear with (blocks b)|]. intros. now apply s_pair.
Qed.

Lemma s_Set P b g i v : rel b g -> sim P rel (Set_ w b i v) (fb_Set has w g i v).
Proof.
  intros [H E]. unfold Set_, fb_Set. rewrite E. apply sim_assert. intros _.
  apply sim_bind with eq; [now apply s_bget|]. intros x ? <-. apply sim_bind with eq; [apply sim_refl|]. intros m ? <-. cbv zeta.
  apply sim_bind with wrep; [now apply s_bset|]. intros. now apply s_pair.
Qed.

Lemma s_Test P b g i : rel b g -> sim P eq (Test w b i) (fb_Test has w g i).
Proof.
  intros [H E]. unfold Test, fb_Test. rewrite E. apply sim_assert. intros _.
  apply sim_bind with eq; [now apply s_bget|]. intros x ? <-. apply sim_bind with eq; [apply sim_refl|]. intros m ? <-. now apply sim_done.
Qed.

(** A loop writing every block in order. *)
Lemma loop_map (f : N -> N) (l : list N) (body : list N -> nat -> outcome (list N)) :
  (forall k l', k < length l -> length l' = length l -> nth k l' 0%N = nth k l 0%N -> body l' k = Done (upd l' k (f (nth k l 0%N)))) ->
  foreach (range 0 (length l)) body l = Done (map f l).
Proof.
  intros K.
  destruct (foreach_range (fun i l' => length l' = length l /\ forall j, j < length l -> nth j l' 0%N = if j <? i then f (nth j l 0%N) else nth j l 0%N)
    body 0 (length l) l) as (l' & E & L & Q); [lia | split; [reflexivity|]; intros; now destruct (Nat.ltb_spec j 0); [lia|] | |].
  - intros i l' Hi [L Q]. assert (Q1 : nth i l' 0%N = nth i l 0%N) by (rewrite Q by lia; destruct (Nat.ltb_spec i i); [lia | reflexivity]).
    rewrite K by (auto; lia). eexists. split; [reflexivity|]. split; [now rewrite upd_length|]. intros j Hj. rewrite nth_upd, L, Q by assumption.
    destruct (Nat.eqb_spec j i) as [->|Ne].
    + destruct (Nat.ltb_spec i (length l)); [|lia]. destruct (Nat.ltb_spec i (i + 1)); [reflexivity|lia].
    + cbn [andb]. destruct (Nat.ltb_spec j i), (Nat.ltb_spec j (i + 1)); try reflexivity; lia.
  - rewrite E. f_equal. apply (list_ext (f 0%N)); [now rewrite map_length|].
    intros j Hj. rewrite L in Hj. rewrite map_nth. rewrite (nth_indep _ _ 0%N) by (now rewrite L). rewrite Q by assumption.
    destruct (Nat.ltb_spec j (length l)); [reflexivity|lia].
Qed.

Lemma s_fill P b g x : rel b g ->
  sim P wrep (Done (map (fun _ => x) (blocks b))) (foreach (range 0 (fv_size has (fblocks g))) (fun v i => iset has v i x) (fblocks g)).
Proof.
  intros [H E]. rewrite (w_size _ _ H). rewrite <- (loop_map (fun _ => x) (blocks b) (fun l i => vset l i x)).
  - apply sim_foreach; [exact H|]. intros. now apply s_iset.
  - intros k l' Hk L _. apply vset_done. now rewrite L.
Qed.

Lemma s_SetAll P b g v : rel b g -> sim P rel (SetAll w b v) (fb_SetAll has w g v).
Proof.
  intros H. unfold SetAll, fb_SetAll.
  change (sim P rel (l <- Done (map (fun _ => if v then fullBitMask w else 0%N) (blocks b)) ;; if v then ResetExtraBits w (mkB l (bitCount b)) else Done (mkB l (bitCount b)))
    (fb_SetAll has w g v)). unfold fb_SetAll.
  apply sim_bind with wrep; [now apply s_fill|]. intros l u R. destruct H as [_ E]. rewrite E. destruct v; [apply s_ResetExtraBits; now split | now apply s_pair].
Qed.

Lemma s_Flip P b g : rel b g -> sim P rel (Flip w b) (fb_Flip has w g).
Proof.
  intros [H E]. unfold Flip, fb_Flip.
  change (sim P rel (l <- Done (map (fun x => N.lxor x (fullBitMask w)) (blocks b)) ;; ResetExtraBits w (mkB l (bitCount b)))
    (fb_Flip has w g)). unfold fb_Flip.
  apply sim_bind with wrep.
  - rewrite (w_size _ _ H). rewrite <- (loop_map (fun x => N.lxor x (fullBitMask w)) (blocks b) (fun l i => x <- vget l i ;; vset l i (N.lxor x (fullBitMask w)))).
    + apply sim_foreach; [exact H|]. intros i l v _ R. apply sim_bind with eq; [now apply s_iget|]. intros x ? <-. now apply s_iset.
    + intros k l' Hk L Q. rewrite (vget_done _ _ 0%N) by (now rewrite L). cbn [bind]. rewrite Q. apply vset_done. now rewrite L.
  - intros l v R. apply s_ResetExtraBits. split; [exact R | exact E].
Qed.

Lemma s_GetBlock P b g i : rel b g -> sim P eq (GetBlock b i) (fb_GetBlock has g i).
Proof. intros [H E]. unfold GetBlock, fb_GetBlock. rewrite (w_size _ _ H). apply sim_assert. intros _. now apply s_bget. Qed.

Lemma r_count b g : rel b g -> fb_GetBlockCount has g = GetBlockCount b.
Proof. intros [H E]. apply (w_size _ _ H). Qed.
Lemma r_size b g : rel b g -> fb_GetSize g = GetSize b.
Proof. intros [H E]. exact E. Qed.

Lemma s_SetBlock P b g i x : rel b g -> sim P rel (SetBlock w b i x) (fb_SetBlock has w g i x).
Proof.
  intros [H E]. unfold SetBlock, fb_SetBlock. rewrite (w_size _ _ H). apply sim_assert. intros Hi. apply Nat.ltb_lt in Hi.
  rewrite vset_done by assumption. destruct (w_store _ _ i (trunc w x) H Hi) as (v & D & R). rewrite (bset_store (blocks b)), D by assumption. cbn [bind].
  rewrite (w_size _ _ R), upd_length, E. destruct (i =? _); [apply s_ResetExtraBits; now split | now apply s_pair].
Qed.

Lemma skipn_next {A} (l : list A) k d : k < length l -> skipn k l = nth k l d :: skipn (Datatypes.S k) l.
Proof. revert k; induction l as [|x l IH]; intros [|k] H; simpl in *; try lia; [reflexivity|]. apply IH. lia. Qed.

Lemma s_Count P b g : rel b g -> sim P eq (Done (BitsetModel.Count w b)) (fb_Count has w g).
Proof.
  intros [H E]. unfold fb_Count, BitsetModel.Count. rewrite (w_size _ _ H).
  assert (G : forall n k c, k + n = length (blocks b) ->
    foreach (seq k n) (fun c i => x <- bget has (fblocks g) i ;; Done (c + block_popcount w x)) c = Done (fold_left (fun c x => c + block_popcount w x) (skipn k (blocks b)) c)).
  { induction n as [|n IH]; intros k c Hn; cbn [seq foreach].
    - rewrite skipn_all2 by lia. reflexivity.
    - rewrite (bget_done (blocks b)) by (auto; lia). cbn [bind]. rewrite IH by lia.
      now rewrite (skipn_next (blocks b) k 0%N) by lia. }
  unfold range. rewrite Nat.sub_0_r, G by lia. cbn [skipn]. now apply sim_done.
Qed.

Lemma first_done b g : rel b g -> forall n k, k + n = length (blocks b) -> fb_first has (fblocks g) (seq k n) = Done (first_nonzero (skipn k (blocks b)) k).
Proof.
  intros [H E]. induction n as [|n IH]; intros k Hn; cbn [seq fb_first].
  - rewrite skipn_all2 by lia. reflexivity.
  - rewrite (bget_done (blocks b)) by (auto; lia). cbn [bind]. rewrite IH by lia.
    rewrite (skipn_next (blocks b) k 0%N) by lia. cbn [first_nonzero]. now destruct (_ =? 0)%N.
Qed.

Lemma FindFirstFrom_done b g i : rel b g -> fb_FindFirstFrom has w g i = Done (FindFirstFrom w b i).
Proof.
  intros H. unfold fb_FindFirstFrom, FindFirstFrom. rewrite (w_size (blocks b)) by apply H. destruct (Nat.leb_spec (length (blocks b)) i); [reflexivity|].
  unfold range. rewrite (first_done b) by (auto; lia). reflexivity.
Qed.

Lemma FindFirst_done b g : rel b g -> fb_FindFirst has w g = Done (FindFirst w b).
Proof. apply FindFirstFrom_done. Qed.

Lemma s_FindNext P b g i : rel b g -> sim P eq (FindNext w b i) (fb_FindNext has w g i).
Proof.
  intros H. pose proof H as [H1 H2]. unfold FindNext, fb_FindNext. rewrite H2. apply sim_assert. intros _. cbv zeta. apply sim_if; [now apply sim_done|].
  apply sim_bind with eq; [now apply s_bget|]. intros x ? <-. apply sim_bind with eq; [apply sim_refl|]. intros y ? <-.
  apply sim_if; [now apply sim_done|]. rewrite (FindFirstFrom_done b) by assumption. now apply sim_done.
Qed.

Lemma s_Intersects P a b ga gb : rel a ga -> rel b gb -> sim P eq (Intersects a b) (fb_Intersects has ga gb).
Proof.
  intros Ha Hb. unfold Intersects, fb_Intersects. rewrite (r_count a ga Ha), (r_count b gb Hb). generalize (range 0 (Nat.min (GetBlockCount a) (GetBlockCount b))).
  induction l as [|i l IH]; cbn [intersects_loop fb_intersects_loop]; [now apply sim_done|].
  apply sim_bind with eq; [now apply s_GetBlock|]. intros x ? <-. apply sim_bind with eq; [now apply s_GetBlock|]. intros y ? <-.
  apply sim_if; [now apply sim_done | exact IH].
Qed.

Lemma s_TestAll P b g : rel b g -> sim P eq (TestAll w b) (fb_TestAll has w g).
Proof.
  intros [H E]. unfold TestAll, fb_TestAll. rewrite E. change (fb_mask w (bitCount b)) with (GetLastBlockMask w b).
  apply sim_bind with eq; [apply sim_refl|]. intros m ? <-. rewrite (w_size _ _ H). generalize (range 0 (length (blocks b))).
  induction l as [|i l IH]; cbn [testall_loop fb_testall_loop]; [now apply sim_done|]. cbv zeta. rewrite (w_size _ _ H).
  apply sim_bind with eq; [now apply s_bget|]. intros x ? <-. apply sim_if; [now apply sim_done | exact IH].
Qed.

Lemma TestAny_done b g : rel b g -> fb_TestAny has g = Done (TestAny b).
Proof.
  intros H. unfold fb_TestAny, TestAny. rewrite (w_empty (blocks b)), (w_size (blocks b)) by apply H.
  unfold range. rewrite (first_done b) by (auto; lia). cbn [bind skipn].
  assert (G : forall l k, match first_nonzero l k with Some _ => true | None => false end = existsb (fun x => negb (x =? 0)%N) l).
  { induction l as [|x l IH]; intros k; cbn; [reflexivity|]. destruct (x =? 0)%N; cbn; auto. }
  rewrite G. destruct (blocks b); reflexivity.
Qed.

Lemma TestNone_done b g : rel b g -> fb_TestNone has g = Done (TestNone b).
Proof. intros H. unfold fb_TestNone. now rewrite (TestAny_done b). Qed.

Lemma s_Reverse P b g : rel b g -> sim P rel (Reverse w b) (fb_Reverse has w g).
Proof.
  intros H. unfold Reverse, fb_Reverse. pose proof (r_size _ _ H) as E. unfold fb_GetSize, GetSize in E. rewrite E. apply sim_if; [now apply sim_done|].
  generalize (bitCount b) at 1 3; intros fuel. generalize 0, (bitCount b - 1). clear E. revert b g H.
  induction fuel as [|f IH]; intros b g H i j; cbn [reverse_loop fb_reverse_loop].
  - apply sim_if; [apply sim_fault | now apply sim_done].
  - apply sim_if; [|now apply sim_done]. apply sim_bind with eq; [now apply s_Test|]. intros t1 ? <-. apply sim_bind with eq; [now apply s_Test|]. intros t2 ? <-.
    apply sim_bind with rel; [now apply s_Set|]. intros b1 g1 H1. apply sim_bind with rel; [now apply s_Set|]. intros b2 g2 H2. now apply IH.
Qed.

Ltac step := first [apply sim_bind with eq; [first [now apply s_bget | now apply s_iget | apply sim_refl] | intros ? ? <-]].

Lemma s_ShiftLeft P b g k : rel b g -> sim P rel (ShiftLeft w b k) (fb_ShiftLeft has w g k).
Proof.
  intros H. pose proof H as [HB E]. unfold ShiftLeft, fb_ShiftLeft. rewrite E, (w_size _ _ HB). apply sim_if; [now apply sim_done|].
  apply sim_if; [now apply s_SetAll|]. cbv zeta. apply sim_bind with wrep.
  2: { intros l v R. apply s_ResetExtraBits. now split. }
  apply sim_if.
  - apply sim_bind with wrep.
    + apply sim_foreach; [exact HB|]. intros i l v _ R. repeat step. now apply s_bset.
    + intros l v R. repeat step. apply sim_bind with wrep; [now apply s_bset|]. intros l' v' R'. apply sim_foreach; [exact R'|]. intros. now apply s_iset.
  - apply sim_foreach; [exact HB|]. intros i l v _ R. apply sim_if; [|now apply s_iset]. repeat step. now apply s_iset.
Qed.

Lemma s_ShiftRight P b g k : rel b g -> sim P rel (ShiftRight w b k) (fb_ShiftRight has w g k).
Proof.
  intros H. pose proof H as [HB E]. unfold ShiftRight, fb_ShiftRight. rewrite E, (w_size _ _ HB). apply sim_if; [now apply sim_done|].
  apply sim_if; [now apply s_SetAll|]. cbv zeta. apply sim_bind with wrep.
  2: { intros l v R. apply s_ResetExtraBits. now split. }
  apply sim_if.
  - apply sim_bind with wrep.
    + apply sim_foreach; [exact HB|]. intros i l v _ R. repeat step. now apply s_bset.
    + intros l v R. repeat step. apply sim_bind with wrep; [now apply s_bset|]. intros l' v' R'. apply sim_foreach; [exact R'|]. intros. now apply s_iset.
  - apply sim_foreach; [exact HB|]. intros i l v _ R. apply sim_if; [|now apply s_iset]. repeat step. now apply s_iset.
Qed.

Lemma s_UnboundedSet P b g i v : rel b g -> (bitCount b <= i -> v = true -> overflow (ComputeBlockCount w (i + 1)) -> P) ->
  sim P rel (UnboundedSet w b i v) (fb_UnboundedSet has cap w g i v).
Proof.
  intros H HP. pose proof H as [HB E]. unfold UnboundedSet, fb_UnboundedSet. rewrite E. destruct (Nat.ltb_spec i (bitCount b)); [now apply s_Set|].
  destruct v; [|now apply sim_done]. apply sim_bind with rel; [apply s_Resize; auto|]. intros. now apply s_Set.
Qed.

Lemma s_UnboundedTest P b g i : rel b g -> sim P eq (UnboundedTest w b i) (fb_UnboundedTest has w g i).
Proof. intros H. pose proof H as [HB E]. unfold UnboundedTest, fb_UnboundedTest. rewrite E. apply sim_if; [now apply s_Test | now apply sim_done]. Qed.

Lemma s_of_string P s : (overflow (ComputeBlockCount w (length s)) -> P) -> sim P rel (of_string w s) (fb_of_string has cap w s).
Proof.
  intros HP. unfold of_string, fb_of_string. cbv zeta.
  match goal with |- sim _ _ (foreach ?r ?f (mkB ?l ?n)) _ => change (sim P rel (bind (Done l) (fun q => foreach r f (mkB q n))) (fb_of_string has cap w s)) end. unfold fb_of_string. cbv zeta.
  apply sim_bind with wrep; [apply s_resize; [apply w_new | exact HP]|]. intros l v R.
  apply sim_foreach; [now split|]. intros i b g _ H. pose proof (r_size _ _ H) as E. unfold fb_GetSize, GetSize in E.
  apply sim_bind with eq; [apply sim_refl|]. intros c ? <-. rewrite E. apply sim_if; [now apply s_Set|]. apply sim_if; [now apply sim_done | apply sim_fault].
Qed.

Lemma s_ToString P b g : rel b g -> sim P eq (ToString w b) (fb_ToString has w g).
Proof.
  intros H. pose proof H as [HB E]. unfold ToString, fb_ToString. rewrite E. apply sim_foreach; [reflexivity|]. intros i s ? _ <-.
  apply sim_bind with eq; [now apply s_Test|]. intros t ? <-. apply sim_if; [apply sim_refl | now apply sim_done].
Qed.

Lemma s_To P tw b g : rel b g -> sim P eq (To w tw b) (fb_To has w tw g).
Proof.
  intros H. pose proof H as [HB E]. unfold To, fb_To. rewrite E, (w_size _ _ HB). apply sim_assert. intros _. apply sim_foreach; [reflexivity|]. intros i s ? _ <-.
  step. apply sim_if; [now apply sim_done | apply sim_fault].
Qed.

Lemma s_equals P a b ga gb : rel a ga -> rel b gb -> sim P eq (equals a b) (fb_equals has ga gb).
Proof.
  intros Ha Hb. unfold equals, fb_equals. rewrite (r_count a ga Ha), (r_count b gb Hb).
  assert (C : forall l, sim P eq (eq_common a b l) (fb_eq_common has ga gb l)).
  { induction l as [|i l IH]; cbn [eq_common fb_eq_common]; [now apply sim_done|].
    apply sim_bind with eq; [now apply s_GetBlock|]. intros x ? <-. apply sim_bind with eq; [now apply s_GetBlock|]. intros y ? <-. apply sim_if; [now apply sim_done | exact IH]. }
  assert (Z : forall x gx l, rel x gx -> sim P eq (all_zero x l) (fb_all_zero has gx l)).
  { intros x gx l Hx. induction l as [|i l IH]; cbn [all_zero fb_all_zero]; [now apply sim_done|].
    apply sim_bind with eq; [now apply s_GetBlock|]. intros y ? <-. apply sim_if; [now apply sim_done | exact IH]. }
  destruct (_ <? _); rewrite ?(r_count a ga Ha), ?(r_count b gb Hb); (apply sim_bind with eq; [apply C|]; intros c ? <-; apply sim_if; [now apply Z | now apply sim_done]).
Qed.

Lemma s_less P a b ga gb : rel a ga -> rel b gb -> sim P eq (less a b) (fb_less has ga gb).
Proof.
  intros Ha Hb. unfold less, fb_less. rewrite (r_count a ga Ha), (r_count b gb Hb).
  assert (C : forall l, sim P eq (less_common a b l) (fb_less_common has ga gb l)).
  { induction l as [|i l IH]; cbn [less_common fb_less_common]; [now apply sim_done|].
    apply sim_bind with eq; [now apply s_GetBlock|]. intros x ? <-. apply sim_bind with eq; [now apply s_GetBlock|]. intros y ? <-. apply sim_if; [now apply sim_done | exact IH]. }
  destruct (_ <? _); rewrite ?(r_count a ga Ha), ?(r_count b gb Hb); cbv zeta; (apply sim_bind with (fun (_ _ : unit) => True); [|intros; apply C]);
    (apply sim_if; [|now apply sim_done]); (apply sim_bind with eq; [now apply s_GetBlock|]; intros; apply sim_fault).
Qed.

Lemma s_bit_ref P b g i : rel b g -> sim P eq (bit_ref w b i) (fb_ref has w g i).
Proof.
  intros [H E]. unfold bit_ref, fb_ref. rewrite (w_size _ _ H). destruct (_ <? _); cbn; [|exact I]. apply sim_bind with eq; [apply sim_refl|]. intros m ? <-. now apply sim_done.
Qed.

Lemma s_Bit_Test P b g r : rel b g -> sim P eq (Bit_Test b r) (fb_Bit_Test has g r).
Proof. intros [H E]. unfold Bit_Test, fb_Bit_Test. step. now apply sim_done. Qed.

Lemma s_Bit_Set P b g r v : rel b g -> sim P rel (Bit_Set w b r v) (fb_Bit_Set has w g r v).
Proof.
  intros [H E]. unfold Bit_Set, fb_Bit_Set. rewrite E. step. cbv zeta. apply sim_bind with wrep; [now apply s_iset|]. intros. now apply s_pair.
Qed.

Lemma s_Bit_Flip P b g r : rel b g -> sim P rel (Bit_Flip b r) (fb_Bit_Flip has g r).
Proof. intros [H E]. unfold Bit_Flip, fb_Bit_Flip. rewrite E. step. apply sim_bind with wrep; [now apply s_iset|]. intros. now apply s_pair. Qed.

Lemma s_Bit_op P b g r (f : bool -> bool) : rel b g -> sim P rel (t <- Bit_Test b r ;; Bit_Set w b r (f t)) (t <- fb_Bit_Test has g r ;; fb_Bit_Set has w g r (f t)).
Proof. intros H. apply sim_bind with eq; [now apply s_Bit_Test|]. intros t ? <-. now apply s_Bit_Set. Qed.
End P.
