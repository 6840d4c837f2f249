(** MemoryPool: the state Reset leaves behind. *)
From Verif Require Import CellProofs BitsetSpec BitsetBits BitsetProofs BitsetFind VectorCopy PoolModel PoolProofs PoolHistory.
Open Scope nat_scope.

Section Pool.
Context {A : Type}.
Variable stride : N.
Variable bs : nat.
Implicit Types (b : @pblock A) (p : @pool A) (st : list (nat * list bool)).

(** What allocation looks at: the counter and the free bits. *)
Definition weak b (x : nat * list bool) : Prop :=
  occupiedEntryCount b = fst x /\ length (snd x) = bs /\ repr 64 (freeEntries b) (snd x) /\ exists ol, length ol = bs /\ repr 64 (occupiedEntries b) ol.

Lemma find_weak l st : Forall2 weak l st -> forall j c fl i, nth_error st j = Some (c, fl) -> c <> bs ->
  exists k c' fl', k <= j /\ nth_error st k = Some (c', fl') /\ c' <> bs /\
    find_room bs l i = match s_find fl' 0 with Some q => Done (Some (i + k, q)) | None => Fault FAssert end.
Proof.
  induction 1 as [|b [c0 fl0] l st (H1 & H2 & H3 & H4) H IH]; intros j c fl i E HC; [destruct j; discriminate|]. cbn [find_room]. cbn [fst snd] in *. rewrite H1.
  destruct (Nat.eqb_spec c0 bs) as [Q|Q].
  - destruct j as [|j]; [injection E as <- <-; contradiction|]. destruct (IH j c fl (i + 1) E HC) as (k & c' & fl' & Hk & Ek & Hc & ->). exists (S k), c', fl'. repeat split; auto; [lia|].
    destruct (s_find fl' 0); [|reflexivity]. do 3 f_equal. lia.
  - exists 0, c0, fl0. repeat split; auto; [lia|]. rewrite (FindFirst_repr 64 _ _ H3). destruct (s_find fl0 0); [|reflexivity]. do 3 f_equal. lia.
Qed.

Fixpoint free_bits st : nat := match st with [] => 0 | x :: r => s_count (snd x) + free_bits r end.

Lemma s_count_upd l i : nth_error l i = Some true -> s_count l = S (s_count (upd l i false)).
Proof.
  unfold s_count. revert i. induction l as [|x l IH]; intros [|i] E; try discriminate; cbn [nth_error upd] in *.
  - injection E as ->. reflexivity.
  - specialize (IH i E). cbn [count_occ]. destruct (Bool.bool_dec x true); lia.
Qed.

Lemma free_upd st j k c c' fl fl' : k <= j -> nth_error st k = Some (c, fl) -> s_count fl = S (s_count fl') ->
  free_bits (firstn (j + 1) st) = S (free_bits (firstn (j + 1) (upd st k (c', fl')))).
Proof.
  revert k j. induction st as [|x st IH]; intros [|k] j Hk E HS; try discriminate; cbn [nth_error] in *; rewrite Nat.add_1_r; cbn [firstn upd free_bits].
  - injection E as ->. cbn [snd]. lia.
  - destruct j as [|j]; [lia|]. specialize (IH k j ltac:(lia) E HS). rewrite Nat.add_1_r in IH. lia.
Qed.

(** One deferred allocation. *)
Lemma weak_alloc p st j c fl at_ : m_blockSize p = bs -> Forall2 weak (m_blocks p) st -> nth_error st j = Some (c, fl) -> c <> bs ->
  exists k c' fl', k <= j /\ nth_error st k = Some (c', fl') /\
  match s_find fl' 0 with
  | None => find_room bs (m_blocks p) 0 = Fault FAssert
  | Some q => exists l i e, Allocate_defer stride p at_ = Done (MP bs l, i, e) /\ Forall2 weak l (upd st k (c' + 1, upd fl' q false)) /\ length l = length (m_blocks p) /\ nth_error fl' q = Some true
  end.
Proof.
  intros HB H E HC. destruct (find_weak _ _ H j c fl 0 E HC) as (k & c' & fl' & Hk & Ek & Hc & F). exists k, c', fl'. split; [exact Hk|]. split; [exact Ek|]. cbn [Nat.add] in F.
  destruct (Forall2_nth _ _ _ _ _ H Ek) as (b & Eb & (W1 & W2 & W3 & ol & W4 & W5)). cbn [fst snd] in *. unfold Allocate_defer. rewrite HB, F. pose proof (s_find_spec 64 fl' 0) as SF.
  destruct (s_find fl' 0) as [q|]; cbn [bind]; [|reflexivity]. destruct SF as (B & T & _). rewrite (vget_some _ _ _ Eb). cbn [bind]. unfold ResetBit.
  destruct (Set_done 64 _ _ q false W3) as (f & -> & Rf); [lia|]. cbn [bind]. destruct (Set_done 64 _ _ q true W5) as (o & -> & Ro); [lia|]. cbn [bind].
  rewrite vset_done by (apply nth_error_Some; congruence). cbn [bind]. rewrite HB. do 3 eexists. split; [reflexivity|]. split; [|split; [apply upd_length|]].
  - apply Forall2_upd; [exact H|]. split; [cbn; lia|]. cbn [snd fst freeEntries occupiedEntries]. split; [now rewrite upd_length|]. split; [exact Rf|]. exists (s_set ol q true). split; [unfold s_set; now rewrite upd_length | exact Ro].
  - unfold sbit in T. destruct (nth_error fl' q) as [[]|] eqn:N; [reflexivity | rewrite (nth_error_nth _ _ _ N) in T; discriminate | apply nth_error_None in N; lia].
Qed.

(** A block whose counter and free bits do not add up to the block size starves the pool. *)
Lemma starve at_ : forall m p st j c fl, m_blockSize p = bs -> Forall2 weak (m_blocks p) st -> nth_error st j = Some (c, fl) -> c + s_count fl < bs -> free_bits (firstn (j + 1) st) = m ->
  exists n p' ptrs, n <= m /\ pool_run stride p (repeat (PDefer at_) n) = Done (p', ptrs) /\ length (m_blocks p') = length (m_blocks p) /\ m_blockSize p' = bs /\ find_room bs (m_blocks p') 0 = Fault FAssert.
Proof.
  induction m as [|m IH]; intros p st j c fl HB H E HD HM; destruct (weak_alloc p st j c fl at_ HB H E ltac:(lia)) as (k & c' & fl' & Hk & Ek & S); destruct (s_find fl' 0) as [q|].
  - destruct S as (l & i & e & _ & _ & _ & T). pose proof (free_upd st j k c' c' fl' (upd fl' q false) Hk Ek (s_count_upd _ _ T)). lia.
  - exists 0, p, []. repeat split; [lia | exact HB | exact S].
  - destruct S as (l & i & e & EA & H' & L & T). pose proof (s_count_upd _ _ T) as CU. pose proof (free_upd st j k c' (c' + 1) fl' (upd fl' q false) Hk Ek CU) as FU.
    assert (E' : exists c1 fl1, nth_error (upd st k (c' + 1, upd fl' q false)) j = Some (c1, fl1) /\ c1 + s_count fl1 < bs).
    { rewrite nth_error_upd. destruct (Nat.eqb_spec j k) as [->|].
      - replace (k <? length st) with true by (symmetry; apply Nat.ltb_lt, nth_error_Some; congruence). do 2 eexists. split; [reflexivity|]. rewrite E in Ek. injection Ek as <- <-. lia.
      - exists c, fl. auto. }
    destruct E' as (c1 & fl1 & E1 & D1). destruct (IH (MP bs l) _ j c1 fl1 eq_refl H' E1 D1 ltac:(lia)) as (n & p' & ptrs & Hn & ER & L' & HB' & HA).
    exists (S n), p', (Some (i, e) :: ptrs). split; [lia|]. cbn [repeat pool_run pool_apply]. rewrite EA. cbn [bind]. rewrite ER. cbn [bind]. repeat split; [rewrite L'; exact L | exact HB' | exact HA].
  - exists 0, p, []. repeat split; [lia | exact HB | exact S].
Qed.

Lemma free_bits_le st k : Forall (fun x => length (snd x) = bs) st -> free_bits (firstn k st) <= k * bs.
Proof.
  intros H. revert k. induction H as [|x st Hx H IH]; intros [|k]; cbn [firstn free_bits Nat.mul]; try lia. specialize (IH k). pose proof (count_occ_bound Bool.bool_dec true (snd x)). unfold s_count. lia.
Qed.
Lemma s_count_miss l i : nth_error l i = Some false -> s_count l < length l.
Proof.
  unfold s_count. revert i. induction l as [|x l IH]; intros [|i] E; try discriminate; cbn [nth_error] in E; cbn [count_occ length].
  - injection E as ->. cbn. pose proof (count_occ_bound Bool.bool_dec true l). lia.
  - specialize (IH i E). destruct (Bool.bool_dec x true); lia.
Qed.

(** After Reset of a pool in use. *)
Lemma reset_starves p ss at_ : 2 <= bs -> rep bs p ss -> sp_settled (concat ss) = true -> 0 < sp_count (concat ss) ->
  exists p1 n p2 ptrs, Reset p = Done p1 /\ n < GetBlockCount p * bs /\ pool_run stride p1 (repeat (PDefer at_) n) = Done (p2, ptrs) /\ GetBlockCount p2 = GetBlockCount p /\ m_blockSize p2 = bs /\ find_room bs (m_blocks p2) 0 = Fault FAssert /\
    forall at', Allocate_defer stride p2 at' = Fault FAssert.
Proof.
  intros HB2 (HB & H) HS HC. destruct (reset_blocks_rep bs ltac:(lia) _ _ H HS (or_introl HB2)) as (l & EL & W & L). exists (MP bs l). unfold Reset. rewrite EL, HB. cbn [bind].
  assert (G : exists st, Forall2 weak l st /\ exists j fl, nth_error st j = Some (0, fl) /\ s_count fl < bs).
  { clear HB EL L. revert l W HS HC. induction H as [|b s lb ss Hb H IH]; intros l W HS HC; [cbn in HC; lia|]. cbn [combine] in W. inversion W as [|? b' ? l' W1 W2]; subst; clear W.
    rewrite settled_concat in HS by lia. cbn [forallb] in HS. apply andb_prop in HS. destruct HS as (HS1 & HS2). rewrite <- settled_concat in HS2 by lia. cbn [concat] in HC. rewrite count_app in HC.
    pose proof Hb as (HL & HCo & HM & HF & HO). destruct W1 as (V1 & V2 & V3 & V4).
    assert (ALL : forall lb ss l, Forall2 (blk bs) lb ss -> Forall2 (fun '(b, s) b' => wiped bs b s b') (combine lb ss) l -> exists st, Forall2 weak l st).
    { clear. intros lb ss l H. revert l. induction H as [|b s lb ss (HL & HCo & HM & HF & HO) H IH]; intros l W; cbn [combine] in W; inversion W as [|? b' ? l' W1 W2]; subst; [exists []; constructor|].
      destruct (IH _ W2) as (st & Hst). destruct W1 as (V1 & V2 & V3 & V4). destruct (sp_count s =? 0).
      - subst b'. exists ((0, map vacant s) :: st). constructor; [|exact Hst]. split; [exact V2|]. cbn [fst snd]. split; [now rewrite map_length|]. split; [exact HF|]. exists (map held s). split; [now rewrite map_length | exact HO].
      - destruct V4 as (F & O). eexists ((0, _) :: st). constructor; [|exact Hst]. split; [exact V2|]. cbn [fst snd]. split; [|split; [exact F|]]. { now rewrite upd_length, map_length. }
        eexists. split; [|exact O]. now rewrite upd_length, map_length. }
    destruct (Nat.eqb_spec (sp_count s) 0) as [Z|NZ].
    - subst b'. destruct (IH l' W2 HS2 ltac:(lia)) as (st & Hst & j & fl & E & D). exists ((0, map vacant s) :: st). split; [|exists (S j), fl; auto]. constructor; [|exact Hst].
      split; [exact V2|]. cbn [fst snd]. split; [now rewrite map_length|]. split; [exact HF|]. exists (map held s). split; [now rewrite map_length | exact HO].
    - destruct V4 as (F & O). destruct (ALL _ _ _ H W2) as (st & Hst). exists ((0, upd (map vacant s) 1 false) :: st). split.
      + constructor; [|exact Hst]. split; [exact V2|]. cbn [fst snd]. split; [now rewrite upd_length, map_length|]. split; [exact F|]. eexists. split; [|exact O]. now rewrite upd_length, map_length.
      + exists 0, (upd (map vacant s) 1 false). split; [reflexivity|]. assert (M : s_count (upd (map vacant s) 1 false) < length (upd (map vacant s) 1 false)).
        { apply (s_count_miss _ 1). rewrite nth_error_upd, map_length. now replace (1 <? length s) with true by lia. }
        rewrite upd_length, map_length in M. lia. }
  destruct G as (st & Hst & j & fl & E & D). assert (FL : Forall (fun x => length (snd x) = bs) st) by (clear - Hst; induction Hst as [|b x l st (_ & HL & _) H IH]; constructor; assumption).
  destruct (starve at_ _ (MP bs l) st j 0 fl eq_refl Hst E ltac:(lia) eq_refl) as (n & p2 & ptrs & Hn & ER & L2 & HB' & HA). exists n, p2, ptrs. split; [reflexivity|]. unfold GetBlockCount. cbn [m_blocks] in L2.
  split; [|split; [exact ER|]; split; [congruence|]; split; [exact HB'|]; split; [exact HA|]; intros at'; unfold Allocate_defer; now rewrite HB', HA]. rewrite <- L, (Forall2_len _ _ _ Hst). assert (j < length st) by (apply nth_error_Some; congruence).
  enough (free_bits (firstn (j + 1) st) < (j + 1) * bs) by (assert ((j + 1) * bs <= length st * bs) by (apply Nat.mul_le_mono_r; lia); lia).
  clear - E D FL HB2. revert j E. induction FL as [|x st Hx H IH]; intros [|j] E; try discriminate; cbn [nth_error] in E; rewrite Nat.add_1_r; cbn [firstn free_bits].
  - injection E as ->. cbn [snd]. lia.
  - specialize (IH j E). rewrite Nat.add_1_r in IH. pose proof (count_occ_bound Bool.bool_dec true (snd x)). unfold s_count in *. cbn [Nat.mul firstn] in *. lia.
Qed.
End Pool.
