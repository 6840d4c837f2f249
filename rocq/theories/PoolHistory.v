(** MemoryPool: reset, histories, iteration, entry lookup. *)
From Verif Require Import CellProofs BitsetSpec BitsetBits BitsetProofs BitsetFind VectorCopy PoolModel PoolProofs.
Open Scope nat_scope.

Section Pool.
Context {A : Type}.
Variables size stride : N.
Variable bs : nat.
Hypothesis bs_pos : 0 < bs.
Implicit Types (s : list (slot A)) (ss : list (list (slot A))) (b : @pblock A) (p : @pool A).
Local Notation rep := (rep bs). Local Notation blk := (blk bs). Local Notation place := (place bs stride).

(** ** Reset *)
Lemma map_seq_shift {B} (f : nat -> B) a n : map f (seq (S a) n) = map (fun i => f (S i)) (seq a n).
Proof. rewrite <- seq_shift, map_map. reflexivity. Qed.

Lemma destroy_held s : forall pre, foreach (filter (fun i => sbit (map held s) (i - pre)) (seq pre (length s))) (@destroy A) (repeat Raw pre ++ map cell_of s) =
  if sp_settled s then Done (repeat Raw (pre + length s)) else Fault FUB.
Proof.
  induction s as [|x s IH]; intros pre.
  - cbn. now rewrite app_nil_r, Nat.add_0_r.
  - cbn [length seq filter]. rewrite Nat.sub_diag. unfold sbit at 1. cbn [map nth].
    assert (F : filter (fun i => sbit (held x :: map held s) (i - pre)) (seq (S pre) (length s)) = filter (fun i => sbit (map held s) (i - S pre)) (seq (S pre) (length s))).
    { apply filter_ext_in. intros i Hi. apply in_seq in Hi. unfold sbit. replace (i - pre) with (S (i - S pre)) by lia. reflexivity. }
    rewrite F. assert (D : repeat Raw pre ++ Raw :: map cell_of s = repeat Raw (S pre) ++ map cell_of s).
    { replace (repeat (@Raw A) (S pre)) with (repeat (@Raw A) pre ++ [Raw]) by (symmetry; apply (repeat_cons pre)). now rewrite <- app_assoc. }
    replace (pre + S (length s)) with (S pre + length s) by lia. destruct x as [| |a]; cbn [held vacant negb foreach cell_of sp_settled forallb andb].
    + rewrite D. apply IH.
    + unfold destroy at 1. rewrite nth_error_mid by (now rewrite repeat_length). reflexivity.
    + rewrite destroy_mid by (now rewrite repeat_length). cbn [bind]. rewrite D. apply IH.
Qed.

Lemma count_zero s : sp_count s = 0 -> s = repeat Vacant (length s).
Proof.
  unfold sp_count. induction s as [|x s IH]; intros H; [reflexivity|]. cbn [filter] in H. destruct x as [| |a]; cbn [held vacant negb length] in H; try discriminate.
  cbn [length repeat]. f_equal. now apply IH.
Qed.

Lemma cells_raw n : map cell_of (repeat (@Vacant A) n) = repeat Raw n.
Proof. induction n as [|n IH]; [reflexivity|]. cbn [repeat map]. now rewrite IH. Qed.

(** What Reset makes of a block. *)
Definition wiped b s b' : Prop := base b' = base b /\ occupiedEntryCount b' = 0 /\ memory b' = repeat Raw bs /\
  (if sp_count s =? 0 then b' = b else repr 64 (freeEntries b') (upd (map vacant s) 1 false) /\ repr 64 (occupiedEntries b') (upd (map held s) 0 false)).

Lemma reset_block_rep b s : blk b s -> sp_settled s = true -> 2 <= bs \/ sp_count s = 0 -> exists b', reset_block b = Done b' /\ wiped b s b'.
Proof.
  intros (HL & HC & HM & HF & HO) HS HB. unfold reset_block, wiped. rewrite HC. destruct (Nat.eqb_spec (sp_count s) 0) as [Z|NZ].
  - exists b. split; [reflexivity|]. split; [reflexivity|]. split; [congruence|]. split; [|reflexivity]. rewrite HM, (count_zero s Z), HL. apply cells_raw.
  - rewrite (IterBits_repr 64 _ _ HO). cbn [bind]. unfold s_positions. rewrite map_length.
    pose proof (destroy_held s 0) as D. cbn [repeat app Nat.add] in D. rewrite (filter_ext _ (sbit (map held s))) in D by (intros; now rewrite Nat.sub_0_r).
    rewrite HM, D, HS. cbn [bind]. unfold ResetBit. destruct (Set_done 64 _ _ 1 false HF) as (f & -> & Rf); [rewrite map_length; lia|]. cbn [bind].
    destruct (Set_done 64 _ _ 0 false HO) as (o & -> & Ro); [rewrite map_length; lia|]. cbn [bind]. eexists. split; [reflexivity|]. cbn [base occupiedEntryCount memory freeEntries occupiedEntries].
    rewrite HL. auto.
Qed.

Lemma settled_concat ss : sp_settled (concat ss) = forallb sp_settled ss.
Proof. unfold sp_settled. induction ss as [|s ss IH]; [reflexivity|]. cbn [concat forallb]. now rewrite forallb_app, IH. Qed.
Lemma count_concat ss : sp_count (concat ss) = fold_right (fun s c => sp_count s + c) 0 ss.
Proof. induction ss as [|s ss IH]; [reflexivity|]. cbn [concat fold_right]. now rewrite count_app, IH. Qed.

Lemma reset_blocks_rep l ss : Forall2 blk l ss -> sp_settled (concat ss) = true -> 2 <= bs \/ sp_count (concat ss) = 0 ->
  exists l', reset_blocks l = Done l' /\ Forall2 (fun '(b, s) b' => wiped b s b') (combine l ss) l' /\ length l' = length l.
Proof.
  intros H. induction H as [|b s l ss Hb H IH]; intros HS HB.
  - exists []. repeat split; constructor.
  - rewrite settled_concat in HS. cbn [forallb] in HS. apply andb_prop in HS. destruct HS as (HS1 & HS2). rewrite <- settled_concat in HS2.
    cbn [concat] in HB. rewrite count_app in HB.
    destruct (reset_block_rep b s Hb HS1) as (b' & E & W); [lia|]. destruct IH as (l' & E' & W' & L'); [assumption | lia |].
    exists (b' :: l'). cbn [reset_blocks combine length]. rewrite E. cbn [bind]. rewrite E'. cbn [bind]. repeat split; [constructor; assumption | congruence].
Qed.

Definition all_raw (l : list (@pblock A)) : Prop := Forall (fun b => memory b = repeat Raw bs) l.

Lemma wiped_raw l ss l' : Forall2 (fun '(b, s) b' => wiped b s b') (combine l ss) l' -> all_raw l'.
Proof. intros H. induction H as [|[b s] b' x y W H IH]; constructor; [apply W | exact IH]. Qed.

Lemma Clear_rep p ss : rep p ss -> sp_settled (concat ss) = true -> 2 <= bs \/ sp_count (concat ss) = 0 ->
  exists dropped, Clear p = Done (MP bs [], dropped) /\ pool_destroy p = Done dropped /\ all_raw dropped /\ length dropped = length (m_blocks p).
Proof.
  intros (HB & H) HS HC. destruct (reset_blocks_rep _ _ H HS HC) as (l' & E & W & L). exists l'. unfold Clear, pool_destroy, Reset. rewrite E. cbn [bind m_blocks m_blockSize]. rewrite HB.
  split; [reflexivity|]. split; [reflexivity|]. split; [exact (wiped_raw _ _ _ W) | exact L].
Qed.

(** With blocks of one entry, a held entry makes Reset assert. *)
Lemma reset_blocks_one l ss : bs = 1 -> Forall2 blk l ss -> sp_settled (concat ss) = true -> sp_count (concat ss) <> 0 -> reset_blocks l = Fault FAssert.
Proof.
  intros B1 H. induction H as [|b s l ss Hb H IH]; intros HS HC; [now contradict HC|].
  rewrite settled_concat in HS. cbn [forallb] in HS. apply andb_prop in HS. destruct HS as (HS1 & HS2). rewrite <- settled_concat in HS2. cbn [concat] in HC. rewrite count_app in HC.
  cbn [reset_blocks]. destruct (Nat.eq_dec (sp_count s) 0) as [Z|NZ].
  - destruct (reset_block_rep b s Hb HS1) as (b' & -> & _); [lia|]. cbn [bind]. rewrite IH; [reflexivity | assumption | lia].
  - destruct Hb as (HL & HCo & HM & HF & HO). unfold reset_block. rewrite HCo. replace (sp_count s =? 0) with false by lia. rewrite (IterBits_repr 64 _ _ HO). cbn [bind]. unfold s_positions. rewrite map_length.
    pose proof (destroy_held s 0) as D. cbn [repeat app Nat.add] in D. rewrite (filter_ext _ (sbit (map held s))) in D by (intros; now rewrite Nat.sub_0_r).
    rewrite HM, D, HS1. cbn [bind]. pose proof (Set_repr 64 _ _ 1 false HF) as S. rewrite map_length, HL, B1 in S. cbn in S. unfold ResetBit. now rewrite S.
Qed.

(** ** Histories *)
Definition is_clear (o : pop A) : bool := match o with PClear => true | _ => false end.

Lemma pool_step p ss o l r : rep p ss -> sp_apply bs (concat ss) o = Done (l, r) -> is_clear o = false \/ 2 <= bs \/ sp_count (concat ss) = 0 ->
  exists p' ss', pool_apply stride p o = Done (p', option_map (fun i => (i, place (bases p') i)) r) /\ rep p' ss' /\ concat ss' = l /\
    (is_clear o = true \/ exists ext, bases p' = bases p ++ ext).
Proof.
  intros R E HO. destruct o; cbn [sp_apply pool_apply] in *.
  - pose proof (Allocate_rep bs stride bs_pos p ss a at_ R) as D. destruct (sp_take bs (concat ss) (Live a)) as [l1 i]. destruct D as (p' & ss' & -> & R' & C' & B').
    cbn [bind]. injection E as <- <-. exists p', ss'. cbn [option_map]. repeat split; try apply R'; auto. right. eauto.
  - pose proof (Allocate_defer_rep bs stride bs_pos p ss at_ R) as D. destruct (sp_take bs (concat ss) Deferred) as [l1 i]. destruct D as (p' & ss' & -> & R' & C' & B' & _).
    cbn [bind]. injection E as <- <-. exists p', ss'. cbn [option_map]. repeat split; try apply R'; auto. right. eauto.
  - destruct (nth_error (concat ss) i) as [[| |]|] eqn:N; try discriminate. injection E as <- <-. destruct (user_construct_rep bs bs_pos p ss i a R N) as (p' & ss' & -> & R' & C' & B').
    exists p', ss'. repeat split; try apply R'; auto. right. exists []. now rewrite app_nil_r.
  - destruct (nth_error (concat ss) i) as [[| |]|] eqn:N; try discriminate. injection E as <- <-. destruct (user_destroy_rep bs bs_pos p ss i a R N) as (p' & ss' & -> & R' & C' & B').
    exists p', ss'. repeat split; try apply R'; auto. right. exists []. now rewrite app_nil_r.
  - destruct (nth_error (concat ss) i) as [[| |]|] eqn:N; try discriminate. injection E as <- <-. destruct (Free_rep bs stride bs_pos p ss i a R N) as (p' & ss' & -> & R' & C' & B').
    exists p', ss'. repeat split; try apply R'; auto. right. exists []. now rewrite app_nil_r.
  - destruct (nth_error (concat ss) i) as [[| |]|] eqn:N; try discriminate. injection E as <- <-. destruct (Free_nodestruction_rep bs bs_pos p ss i R N) as (p' & ss' & -> & R' & C' & B').
    exists p', ss'. repeat split; try apply R'; auto. right. exists []. now rewrite app_nil_r.
  - destruct (sp_settled (concat ss)) eqn:S; [|discriminate]. injection E as <- <-. destruct (Clear_rep p ss R S) as (d & -> & _); [destruct HO; [discriminate | assumption]|].
    cbn [bind]. exists (MP bs []), []. repeat split; auto. constructor.
Qed.

Lemma pool_history ops : forall p ss l rs, rep p ss -> sp_run bs (concat ss) ops = Done (l, rs) -> 2 <= bs \/ ~ In PClear ops ->
  exists p' ss' ptrs, pool_run stride p ops = Done (p', ptrs) /\ rep p' ss' /\ concat ss' = l /\ map (option_map fst) ptrs = rs /\
    (In PClear ops \/ exists ext, bases p' = bases p ++ ext).
Proof.
  induction ops as [|o ops IH]; intros p ss l rs R E HO.
  - cbn [sp_run pool_run] in *. injection E as <- <-. exists p, ss, []. repeat split; try apply R; auto. right. exists []. now rewrite app_nil_r.
  - cbn [sp_run pool_run] in *. destruct (sp_apply bs (concat ss) o) as [[l1 r]|] eqn:E1; [|discriminate]. cbn [bind] in E.
    destruct (sp_run bs l1 ops) as [[l2 rs2]|] eqn:E2; [|discriminate]. cbn [bind] in E. injection E as <- <-.
    assert (HC : is_clear o = false \/ 2 <= bs \/ sp_count (concat ss) = 0).
    { destruct HO as [HO|HO]; [auto|]. left. destruct o; try reflexivity. exfalso. apply HO. now left. }
    destruct (pool_step p ss o l1 r R E1 HC) as (p1 & ss1 & -> & R1 & C1 & B1). cbn [bind]. rewrite <- C1 in E2.
    assert (HO' : 2 <= bs \/ ~ In PClear ops) by (destruct HO as [HO|HO]; [auto|]; right; intros I; apply HO; now right).
    destruct (IH p1 ss1 l2 rs2 R1 E2 HO') as (p2 & ss2 & ptrs & -> & R2 & C2 & M & B2). cbn [bind].
    exists p2, ss2, (option_map (fun i => (i, place (bases p1) i)) r :: ptrs). repeat split; try apply R2; auto.
    + cbn [map]. rewrite M. f_equal. now destruct r.
    + destruct B1 as [B1|(e1 & B1)]; [left; left; destruct o; try discriminate; reflexivity|]. destruct B2 as [B2|(e2 & B2)]; [left; now right|].
      right. exists (e1 ++ e2). now rewrite B2, B1, app_assoc.
Qed.

Lemma pool_new_rep at_ : exists p : @pool A, pool_new bs at_ = Done p /\ rep p [repeat Vacant bs] /\ bases p = [at_].
Proof.
  unfold pool_new. destruct (@AllocateBlock_rep A bs (MP bs []) [] at_) as (b & E & Eb & Hb); [split; [reflexivity | constructor]|].
  exists (MP bs [b]). split; [exact E|]. split; [split; [reflexivity | constructor; [exact Hb | constructor]]|]. unfold bases. cbn. now rewrite Eb.
Qed.

(** ** Counters *)
Lemma allocated_rep p ss : rep p ss -> GetAllocatedEntryCount p = sp_count (concat ss).
Proof.
  intros (_ & H). unfold GetAllocatedEntryCount. rewrite count_concat.
  enough (G : forall c, fold_left (fun c b => c + occupiedEntryCount b) (m_blocks p) c = c + fold_right (fun s c => sp_count s + c) 0 ss) by apply G.
  induction H as [|b s l ss (_ & HC & _) H IH]; intros c; cbn [fold_left fold_right]; [lia|]. rewrite IH, HC. lia.
Qed.

(** ** Iteration *)
Definition split (q : nat) : nat * nat := (q / bs, q mod bs).

Lemma find_app0 (l1 l2 : list bool) : s_find (l1 ++ l2) 0 = match s_find l1 0 with Some i => Some i | None => option_map (Nat.add (length l1)) (s_find l2 0) end.
Proof.
  pose proof (s_find_spec 64 l1 0) as S1. pose proof (s_find_spec 64 l2 0) as S2. destruct (s_find l1 0) as [i|].
  - destruct S1 as (B1 & T1 & F1). apply (s_find_some 64); [lia | unfold sbit in *; rewrite app_nth1 by lia; exact T1|].
    intros j Hj. unfold sbit in *. rewrite app_nth1 by lia. apply F1; lia.
  - destruct (s_find l2 0) as [i|]; cbn [option_map].
    + destruct S2 as (B2 & T2 & F2). apply (s_find_some 64); [lia | unfold sbit in *; rewrite app_nth2 by lia; now replace (length l1 + i - length l1) with i by lia|].
      intros j Hj. unfold sbit in *. rewrite nth_app_full. destruct (Nat.ltb_spec j (length l1)); [apply S1; lia | apply F2; lia].
    + apply (s_find_none 64). intros j Hj. unfold sbit in *. rewrite nth_app_full. destruct (j <? length l1); [apply S1; lia | apply S2; lia].
Qed.

Lemma find_skip (l : list bool) a : s_find l a = option_map (Nat.add a) (s_find (skipn a l) 0).
Proof.
  pose proof (s_find_spec 64 (skipn a l) 0) as S. destruct (s_find (skipn a l) 0) as [i|]; cbn [option_map].
  - destruct S as (B & T & F). rewrite skipn_length in B. unfold sbit in *. rewrite nth_skipn in T. apply (s_find_some 64); [lia | exact T|].
    intros j Hj. specialize (F (j - a)). rewrite nth_skipn in F. unfold sbit. replace j with (a + (j - a)) by lia. apply F. lia.
  - apply (s_find_none 64). intros j Hj. specialize (S (j - a)). unfold sbit in *. rewrite nth_skipn in S. replace j with (a + (j - a)) by lia. apply S. lia.
Qed.

Lemma find_held_none s : (sp_count s =? 0) = match s_find (map held s) 0 with None => true | Some _ => false end.
Proof.
  pose proof (s_find_spec 64 (map held s) 0) as S. destruct (s_find (map held s) 0) as [i|].
  - destruct S as (B & T & _). rewrite map_length in B. apply Nat.eqb_neq. destruct (nth_error s i) as [x|] eqn:E; [|apply nth_error_None in E; lia].
    unfold sbit in T. rewrite (nth_error_nth _ _ _ (map_nth_error held _ _ E)) in T. pose proof (count_pos bs s i x E T). lia.
  - apply Nat.eqb_eq. unfold sp_count. induction s as [|x s IH]; [reflexivity|]. cbn [filter]. pose proof (S 0 ltac:(lia)) as S0. unfold sbit in S0. cbn [map nth] in S0. rewrite S0.
    apply IH. intros j Hj. apply (S (Datatypes.S j)). lia.
Qed.

Lemma first_allocated_rep l ss i : Forall2 blk l ss ->
  first_allocated l i = Done (option_map (fun q => (i + q / bs, q mod bs)) (s_find (map held (concat ss)) 0)).
Proof.
  intros H. revert i. induction H as [|b s l ss (HL & HC & HM & HF & HO) H IH]; intros i; [reflexivity|]. cbn [first_allocated concat]. rewrite map_app, find_app0, HC, find_held_none, map_length, HL.
  rewrite (FindFirst_repr 64 _ _ HO). pose proof (s_find_spec 64 (map held s) 0) as S. destruct (s_find (map held s) 0) as [k|].
  - destruct S as (B & _). rewrite map_length in B. cbn [option_map]. rewrite Nat.div_small, Nat.mod_small, Nat.add_0_r by lia. reflexivity.
  - rewrite IH. destruct (s_find (map held (concat ss)) 0) as [q|]; [|reflexivity]. cbn [option_map]. do 3 f_equal.
    + replace (bs + q) with (q + 1 * bs) by lia. rewrite Nat.div_add by lia. lia.
    + replace (bs + q) with (q + 1 * bs) by lia. now rewrite Nat.mod_add by lia.
Qed.

Lemma Forall2_skipn {B C} (Q : B -> C -> Prop) l l' k : Forall2 Q l l' -> Forall2 Q (skipn k l) (skipn k l').
Proof. intros H. revert k. induction H; intros [|k]; cbn [skipn]; auto. Qed.

Lemma concat_skip ss k : rows bs ss -> concat (skipn k ss) = skipn (k * bs) (concat ss).
Proof.
  intros H. revert k. induction H as [|s ss HL H IH]; intros [|k]; cbn [skipn concat]; [reflexivity | now rewrite skipn_nil | reflexivity|].
  rewrite IH, skipn_app. rewrite (skipn_all2 s) by lia. cbn [app]. f_equal. lia.
Qed.

Lemma first_from_rep p ss k : rep p ss -> GetFirstAllocatedEntryFromBlock p k = Done (option_map split (s_find (map held (concat ss)) (k * bs))).
Proof.
  intros R. pose proof R as (_ & H). unfold GetFirstAllocatedEntryFromBlock. rewrite (first_allocated_rep _ (skipn k ss)) by (now apply Forall2_skipn).
  rewrite (find_skip _ (k * bs)), skipn_map, <- concat_skip by (exact (rep_rows bs p ss R)). destruct (s_find (map held (concat (skipn k ss))) 0) as [q|]; [|reflexivity]. cbn [option_map]. unfold split. do 2 f_equal.
  replace (k * bs + q) with (q + k * bs) by lia. rewrite Nat.div_add, Nat.mod_add by lia. f_equal. lia.
Qed.

Lemma next_rep p ss q : rep p ss -> q < length (concat ss) ->
  GetNextAllocatedEntry p (q / bs) (q mod bs) = Done (option_map split (s_find (map held (concat ss)) (q + 1))).
Proof.
  intros R Hq. pose proof R as (_ & H). pose proof (rep_rows bs p ss R) as HR. unfold GetNextAllocatedEntry.
  destruct (nth_error (concat ss) q) as [x|] eqn:E; [|apply nth_error_None in E; lia]. destruct (rows_split bs ss q x bs_pos HR E) as (s & Es & Ex).
  destruct (Forall2_nth _ _ _ _ _ H Es) as (b & Eb & (HL & HC & HM & HF & HO)). pose proof (Nat.mod_upper_bound q bs ltac:(lia)) as Hm. pose proof (Nat.div_mod_eq q bs) as DM.
  replace (q / bs <? length (m_blocks p)) with true by (symmetry; apply Nat.ltb_lt, nth_error_Some; congruence). cbn [assert bind]. rewrite (vget_some _ _ _ Eb). cbn [bind].
  rewrite (FindNext_repr 64 _ _ _ HO), map_length, HL. replace (q mod bs <? bs) with true by lia. cbn [bind].
  assert (SP : concat ss = concat (firstn (q / bs) ss) ++ s ++ concat (skipn (q / bs + 1) ss)).
  { rewrite <- (firstn_skipn (q / bs) ss) at 1. rewrite concat_app. f_equal. replace (skipn (q / bs) ss) with (s :: skipn (q / bs + 1) ss); [reflexivity|].
    clear - Es. revert ss Es. generalize (q / bs) as k. induction k as [|k IH]; intros [|r ss] E; try discriminate; [injection E as ->; reflexivity | exact (IH ss E)]. }
  assert (LP : length (concat (firstn (q / bs) ss)) = q / bs * bs).
  { rewrite (rows_length bs); [f_equal; apply firstn_length_le; assert (q / bs < length ss) by (apply nth_error_Some; congruence); lia|].
    unfold rows in *. rewrite Forall_forall in *. intros r Hr. apply HR. rewrite <- (firstn_skipn (q / bs) ss). apply in_or_app. now left. }
  rewrite (find_skip (map held s)). rewrite (find_skip (map held (concat ss))). rewrite SP at 1. rewrite !map_app, skipn_app, map_length, LP. rewrite (skipn_all2 (map held (concat (firstn (q / bs) ss)))) by (rewrite map_length, LP; lia). cbn [app].
  rewrite skipn_app, map_length, HL. replace (q + 1 - q / bs * bs) with (q mod bs + 1) by lia. replace (q mod bs + 1 - bs) with 0 by lia. cbn [skipn]. rewrite find_app0.
  destruct (s_find (skipn (q mod bs + 1) (map held s)) 0) as [k|] eqn:F; cbn [option_map].
  - pose proof (s_find_spec 64 (skipn (q mod bs + 1) (map held s)) 0) as S. rewrite F, skipn_length, map_length, HL in S. destruct S as (B & _). unfold split. do 2 f_equal.
    replace (q + 1 + k) with ((q mod bs + 1 + k) + q / bs * bs) by lia. rewrite Nat.div_add, Nat.mod_add, (Nat.div_small (q mod bs + 1 + k)), (Nat.mod_small (q mod bs + 1 + k)) by lia. reflexivity.
  - rewrite (first_from_rep p ss _ R), find_skip, skipn_map, <- concat_skip by exact HR. destruct (s_find (map held (concat (skipn (q / bs + 1) ss))) 0) as [k|]; [|reflexivity]. cbn [option_map].
    do 3 f_equal. rewrite skipn_length, map_length, HL. lia.
Qed.

Lemma loop_rep p ss : rep p ss -> forall fuel i, length (concat ss) - i <= fuel ->
  pool_loop stride fuel p (option_map split (s_find (map held (concat ss)) i)) =
  Done (map (fun q => (q, place (bases p) q)) (filter (sbit (map held (concat ss))) (seq i (length (map held (concat ss)) - i)))).
Proof.
  intros R. pose proof R as (HB & H). pose proof (rep_rows bs p ss R) as HR. induction fuel as [|f IH]; intros i Hf; rewrite (positions_find 64);
    pose proof (s_find_spec 64 (map held (concat ss)) i) as SF; destruct (s_find (map held (concat ss)) i) as [q|] eqn:E; cbn [option_map pool_loop]; try reflexivity; unfold split; cbn [pool_loop];
    destruct SF as (B & T & _); rewrite map_length in B; [lia|].
  destruct (nth_error (concat ss) q) as [x|] eqn:N; [|apply nth_error_None in N; lia]. destruct (rows_split bs ss q x bs_pos HR N) as (s & Es & Ex).
  unfold sbit in T. rewrite (nth_error_nth _ _ _ (map_nth_error held _ _ N)) in T.
  rewrite (pointer_rep bs stride bs_pos p ss _ _ s R Es) by (apply Nat.mod_upper_bound; lia). rewrite (nth_error_nth _ _ _ Ex), T. cbn [bind].
  rewrite (next_rep p ss q R) by lia. cbn [bind]. rewrite IH by lia. cbn [bind map]. rewrite HB. replace (q / bs * bs + q mod bs) with q by (pose proof (Nat.div_mod_eq q bs); lia). reflexivity.
Qed.

Lemma iterate_rep p ss : rep p ss -> pool_iterate stride p = Done (map (fun i => (i, place (bases p) i)) (sp_indices (concat ss))).
Proof.
  intros R. unfold pool_iterate. rewrite (first_from_rep p ss 0 R). cbn [bind]. rewrite Nat.mul_0_l. rewrite (loop_rep p ss R).
  - rewrite map_length, Nat.sub_0_r. unfold sp_indices. do 2 f_equal. apply filter_ext. intros i. unfold sbit. change false with (held (@Vacant A)) at 1. now rewrite map_nth.
  - rewrite (rows_length bs) by (exact (rep_rows bs p ss R)). rewrite (rep_len bs p ss R). pose proof R as (-> & _). lia.
Qed.

(** ** Entry lookup *)
(** The blocks do not overlap. *)
Definition apart (bl : list N) : Prop := forall i j a c, i < j -> nth_error bl i = Some a -> nth_error bl j = Some c -> (a + N.of_nat bs * stride <= c \/ c + N.of_nat bs * stride <= a)%N.

Lemma find_owner_skip data l i j b : (size <= stride)%N -> nth_error l j = Some b ->
  (forall k c, k < j -> nth_error l k = Some c -> (data < base c)%N \/ (base c + N.of_nat bs * stride <= data)%N) ->
  find_owner size stride bs data l i = find_owner size stride bs data (skipn j l) (i + j).
Proof.
  intros HS. revert l i. induction j as [|j IH]; intros l i E H; [now rewrite Nat.add_0_r|]. destruct l as [|c l]; [discriminate|]. cbn [find_owner skipn nth_error] in *.
  destruct (((base c <=? data) && (data <? base c + N.of_nat bs * size))%N) eqn:T.
  - exfalso. apply andb_prop in T. destruct T as (T1 & T2). apply N.leb_le in T1. apply N.ltb_lt in T2. assert ((N.of_nat bs * size <= N.of_nat bs * stride)%N) by (apply N.mul_le_mono_l; exact HS).
    destruct (H 0 c ltac:(lia) eq_refl); lia.
  - rewrite IH; [f_equal; lia | exact E |]. intros k d Hk Ec. apply (H (Datatypes.S k)); [lia | exact Ec].
Qed.

Lemma owner_rep p ss i : rep p ss -> apart (bases p) -> (0 < size <= stride)%N -> i < length (concat ss) ->
  exists b rest, nth_error (m_blocks p) (i / bs) = Some b /\ skipn (i / bs) (m_blocks p) = b :: rest /\ place (bases p) i = (base b + N.of_nat (i mod bs) * stride)%N /\
  RetrieveEntryIndex size stride p (place (bases p) i) = find_owner size stride bs (place (bases p) i) (b :: rest) (i / bs).
Proof.
  intros R HA HS Hi. pose proof R as (HB & H). pose proof (rep_rows bs p ss R) as HR.
  destruct (nth_error (concat ss) i) as [x|] eqn:E; [|apply nth_error_None in E; lia]. destruct (rows_split bs ss i x bs_pos HR E) as (s & Es & Ex).
  destruct (Forall2_nth _ _ _ _ _ H Es) as (b & Eb & Hb). pose proof (Nat.mod_upper_bound i bs ltac:(lia)) as Hm.
  assert (P : place (bases p) i = (base b + N.of_nat (i mod bs) * stride)%N).
  { unfold PoolProofs.place. rewrite (nth_error_nth (bases p) _ 0%N (map_nth_error base _ _ Eb)). reflexivity. }
  assert (SK : skipn (i / bs) (m_blocks p) = b :: skipn (i / bs + 1) (m_blocks p)).
  { clear - Eb. revert Eb. generalize (m_blocks p) as l, (i / bs) as k. intros l k. revert l. induction k as [|k IH]; intros [|c l] E; try discriminate; [injection E as ->; reflexivity | exact (IH l E)]. }
  exists b, (skipn (i / bs + 1) (m_blocks p)). split; [exact Eb|]. split; [exact SK|]. split; [exact P|]. unfold RetrieveEntryIndex. rewrite HB.
  rewrite (find_owner_skip _ _ 0 (i / bs) b); [now rewrite SK | lia | exact Eb |].
  intros k c Hk Ec. rewrite P. pose proof (HA k (i / bs) (base c) (base b) Hk (map_nth_error base _ _ Ec) (map_nth_error base _ _ Eb)) as D.
  assert ((N.of_nat (i mod bs) * stride < N.of_nat bs * stride)%N) by (apply N.mul_lt_mono_pos_r; lia). lia.
Qed.

(** When the entries are sizeof(T) apart, the index is recovered. *)
Lemma entry_index p ss i : rep p ss -> apart (bases p) -> (0 < size)%N -> stride = size -> i < length (concat ss) ->
  RetrieveEntryIndex size stride p (place (bases p) i) = Done (Some i).
Proof.
  intros R HA HS SS Hi. destruct (owner_rep p ss i R HA ltac:(lia) Hi) as (b & rest & Eb & SK & P & ->). rewrite P. cbn [find_owner]. pose proof (Nat.mod_upper_bound i bs ltac:(lia)) as Hm. rewrite SS in *.
  assert ((N.of_nat (i mod bs) * size < N.of_nat bs * size)%N) by (apply N.mul_lt_mono_pos_r; lia).
  replace (base b <=? base b + N.of_nat (i mod bs) * size)%N with true by (symmetry; apply N.leb_le; lia).
  replace (base b + N.of_nat (i mod bs) * size <? base b + N.of_nat bs * size)%N with true by (symmetry; apply N.ltb_lt; lia). cbn [andb].
  replace (base b + N.of_nat (i mod bs) * size - base b)%N with (N.of_nat (i mod bs) * size)%N by lia. rewrite N.mod_mul by lia. cbn [N.eqb require bind]. rewrite N.div_mul by lia. rewrite Nat2N.id.
  unfold address. rewrite N.eqb_refl. cbn [assert bind]. do 2 f_equal. pose proof (Nat.div_mod_eq i bs). lia.
Qed.

(** When they are further apart, it never is, but for the first entry of a block. *)
Lemma entry_index_wrong p ss i r : rep p ss -> apart (bases p) -> (0 < size < stride)%N -> i < length (concat ss) -> i mod bs <> 0 ->
  RetrieveEntryIndex size stride p (place (bases p) i) = Done r -> r = None.
Proof.
  intros R HA HS Hi Hm. destruct (owner_rep p ss i R HA ltac:(lia) Hi) as (b & rest & Eb & SK & P & ->). rewrite P. cbn [find_owner]. pose proof (Nat.mod_upper_bound i bs ltac:(lia)) as Hm'.
  replace (base b <=? base b + N.of_nat (i mod bs) * stride)%N with true by (symmetry; apply N.leb_le; lia). cbn [andb].
  replace (base b + N.of_nat (i mod bs) * stride - base b)%N with (N.of_nat (i mod bs) * stride)%N by lia.
  destruct (base b + N.of_nat (i mod bs) * stride <? base b + N.of_nat bs * size)%N.
  - destruct ((N.of_nat (i mod bs) * stride) mod size =? 0)%N eqn:M; [|discriminate]. cbn [require bind]. apply N.eqb_eq in M. unfold address. rewrite N2Nat.id.
    destruct (N.eqb_spec (base b + N.of_nat (i mod bs) * stride) (base b + N.of_nat (i mod bs) * stride / size * stride))%N as [Q|Q]; [|discriminate]. exfalso.
    set (k := N.of_nat (i mod bs)) in *. assert (Hk : (0 < k)%N) by lia. assert (Q' : (k * stride = k * stride / size * stride)%N) by lia. apply N.mul_cancel_r in Q'; [|lia].
    assert (D : (k * stride = size * k)%N) by (rewrite Q' at 2; rewrite (N.div_mod' (k * stride) size) at 1; lia). rewrite N.mul_comm in D. apply N.mul_cancel_r in D; lia.
  - assert (G : forall (l : list (@pblock A)) k, (forall c, In c l -> (base b + N.of_nat (i mod bs) * stride < base c)%N \/ (base c + N.of_nat bs * stride <= base b + N.of_nat (i mod bs) * stride)%N) ->
        find_owner size stride bs (base b + N.of_nat (i mod bs) * stride)%N l k = Done None).
    { induction l as [|c l IH]; intros k G; [reflexivity|]. cbn [find_owner].
      destruct (((base c <=? base b + N.of_nat (i mod bs) * stride) && (base b + N.of_nat (i mod bs) * stride <? base c + N.of_nat bs * size))%N) eqn:T.
      - exfalso. apply andb_prop in T. destruct T as (T1 & T2). apply N.leb_le in T1. apply N.ltb_lt in T2. assert ((N.of_nat bs * size <= N.of_nat bs * stride)%N) by (apply N.mul_le_mono_l; lia).
        destruct (G c (or_introl eq_refl)); lia.
      - apply IH. intros c' Hc. apply G. now right. }
    rewrite G; [congruence|]. intros c Hc. apply In_nth_error in Hc. destruct Hc as (k & Hk).
    assert (Ec : nth_error (m_blocks p) (i / bs + 1 + k) = Some c).
    { rewrite <- (firstn_skipn (i / bs) (m_blocks p)), SK, nth_error_app2; rewrite firstn_length_le; try lia.
      - replace (i / bs + 1 + k - i / bs) with (S k) by lia. exact Hk.
      - assert (i / bs < length (m_blocks p)) by (apply nth_error_Some; congruence). lia.
      - assert (i / bs < length (m_blocks p)) by (apply nth_error_Some; congruence). lia. }
    pose proof (HA (i / bs) (i / bs + 1 + k) (base b) (base c) ltac:(lia) (map_nth_error base _ _ Eb) (map_nth_error base _ _ Ec)) as D.
    assert ((N.of_nat (i mod bs) * stride < N.of_nat bs * stride)%N) by (apply N.mul_lt_mono_pos_r; lia). lia.
Qed.
End Pool.
