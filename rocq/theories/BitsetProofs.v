(** Refinement of the bitset model to sequences of booleans: elementary operations. *)
From Verif Require Import Base CInt MathModel BitsetModel BitsetSpec BitsetBits.
Open Scope nat_scope.

Section P.
Variable w : nat.
Context {Hw : width w}.
Let Wpos : 0 < w := width_pos w Hw.

(** [repr b l]: the bitset [b] stores exactly the sequence [l]; every storage bit past the end is zero
    and there are exactly as many blocks as needed. *)
Definition repr (b : bitset) (l : list bool) : Prop :=
  bitCount b = length l /\ length (blocks b) = nblocks w (length l) /\ small w (blocks b) /\
  forall k, lbit w (blocks b) k = sbit l k.

Lemma sbit_high l k : length l <= k -> sbit l k = false.
Proof. intros; unfold sbit; now apply nth_overflow. Qed.

Lemma repr_inj b b' l : repr b l -> repr b' l -> b = b'.
Proof.
  intros (C1 & L1 & S1 & B1) (C2 & L2 & S2 & B2). destruct b as [l1 n1], b' as [l2 n2]; simpl in *.
  f_equal; [|congruence]. apply (lbit_ext w); auto; [congruence|]. intros k _. now rewrite B1, B2.
Qed.

Lemma repr_fun b l l' : repr b l -> repr b l' -> l = l'.
Proof.
  intros (C1 & L1 & S1 & B1) (C2 & L2 & S2 & B2). apply (list_ext false); [congruence|].
  intros i _. specialize (B1 i). specialize (B2 i). unfold sbit in *. congruence.
Qed.

(** ** ResetExtraBits *)
Lemma GetLastBlockMask_done b : exists m, GetLastBlockMask w b = Done m /\ (m < 2 ^ N.of_nat w)%N /\
  forall j, j < w -> N.testbit m (N.of_nat j) = (bitCount b mod w =? 0) || (j <? bitCount b mod w).
Proof.
  unfold GetLastBlockMask. rewrite (GetBitIndex_mod w).
  destruct (divmod_w w (bitCount b)) as [_ HM].
  destruct (Nat.eqb_spec (bitCount b mod w) 0) as [E|E].
  - eexists. split; [reflexivity|]. split; [apply (full_lt w)|].
    intros j Hj. rewrite (full_bits w). simpl. apply N.ltb_lt. lia.
  - rewrite (shl_done w) by lia. simpl. eexists. split; [reflexivity|].
    assert (Q : trunc w (N.shiftl 1 (N.of_nat (bitCount b mod w))) = N.shiftl 1 (N.of_nat (bitCount b mod w))).
    { apply (trunc_id w). rewrite N.shiftl_1_l. apply N.pow_lt_mono_r; lia. }
    rewrite Q. split.
    + apply lt_pow2_bits. intros i Hi. rewrite lowmask_bits. apply N.ltb_ge. lia.
    + intros j Hj. rewrite lowmask_bits. simpl.
      destruct (Nat.ltb_spec j (bitCount b mod w)); [apply N.ltb_lt | apply N.ltb_ge]; lia.
Qed.

Lemma ResetExtraBits_done l n : length l = nblocks w n -> small w l ->
  exists l', ResetExtraBits w (mkB l n) = Done (mkB l' n) /\ length l' = length l /\ small w l' /\
    forall k, lbit w l' k = (k <? n) && lbit w l k.
Proof.
  intros HL HS. unfold ResetExtraBits. cbn [blocks bitCount].
  destruct l as [|x0 l0] eqn:El.
  - simpl in HL. symmetry in HL. apply (proj1 (nblocks_0 w _)) in HL. subst n.
    exists []. split; [reflexivity|]. split; [reflexivity|]. split; [exact HS|].
    intros k. rewrite (lbit_high w) by (simpl; lia). now rewrite andb_false_r.
  - rewrite <- El in *. assert (0 < length l) by (subst l; simpl; lia). clear El x0 l0.
    destruct (GetLastBlockMask_done (mkB l n)) as (m & Em & Hm & Bm). cbn [bitCount] in *.
    rewrite Em. simpl.
    rewrite (vget_done l (length l - 1) 0%N) by lia. simpl. rewrite vset_done by lia. simpl.
    eexists. split; [reflexivity|]. rewrite upd_length. split; [reflexivity|]. split.
    + apply Forall_upd; [exact HS|]. apply land_lt. now apply (small_nth w).
    + intros k. rewrite (lbit_upd w) by lia.
      destruct (divmod_w w k) as [K1 K2]. destruct (divmod_w w n) as [N1 N2].
      destruct (nblocks_cases w n) as [(Z & C1 & C2)|(Z & C1 & C2)]; rewrite <- HL in C1, C2.
      * assert (HWS : w * (length l - 1) + w = w * length l) by (apply (wmul_succ w); lia).
        destruct (Nat.eqb_spec (k / w) (length l - 1)) as [E|E].
        -- rewrite N.land_spec, Bm, Z by assumption. simpl. rewrite andb_true_r. unfold lbit. rewrite E.
           assert (w * (k / w) = w * (length l - 1)) by congruence.
           destruct (Nat.ltb_spec k n); [reflexivity | lia].
        -- destruct (Nat.ltb_spec k n) as [L|L]; [reflexivity|]. simpl.
           apply (lbit_high w). lia.
      * assert (HWS : w * (length l - 1) + w = w * length l) by (apply (wmul_succ w); lia).
        destruct (Nat.eqb_spec (k / w) (length l - 1)) as [E|E].
        -- rewrite N.land_spec, Bm by assumption. rewrite (proj2 (Nat.eqb_neq _ _) Z). simpl.
           unfold lbit. rewrite E. rewrite andb_comm. f_equal.
           assert (w * (k / w) = w * (length l - 1)) by congruence.
           destruct (Nat.ltb_spec (k mod w) (n mod w)), (Nat.ltb_spec k n); try reflexivity; lia.
        -- destruct (Nat.ltb_spec k n) as [L|L]; [reflexivity|]. simpl.
           apply (lbit_high w). assert (length l - 1 <= k / w).
           { apply (wmul_le w). assert (w * (k / w) + w > w * (length l - 1)) by lia.
             assert (length l - 1 < k / w + 1) by (apply (wmul_lt w); lia).
             apply (wmul_mono w). lia. }
           assert (w * length l <= w * (k / w)) by (apply (wmul_mono w); lia). lia.
Qed.

(** Standard way to conclude: the first [n] bits of the storage are those of [L], then ResetExtraBits. *)
Lemma ResetExtraBits_repr l n L : n = length L -> length l = nblocks w n -> small w l ->
  (forall k, k < n -> lbit w l k = sbit L k) ->
  exists b', ResetExtraBits w (mkB l n) = Done b' /\ repr b' L.
Proof.
  intros En HL HS HB. destruct (ResetExtraBits_done l n HL HS) as (l' & E & HL' & HS' & HB').
  exists (mkB l' n). split; [exact E|]. split; [exact En|]. cbn [blocks bitCount]. split; [congruence|]. split; [exact HS'|].
  intros k. rewrite HB'. destruct (Nat.ltb_spec k n) as [Hk|Hk]; simpl.
  - now apply HB.
  - rewrite sbit_high; [reflexivity | lia].
Qed.

(** ** Construction and resizing *)
Lemma repr_empty : repr empty [].
Proof.
  split; [reflexivity|]. split; [symmetry; now apply nblocks_0|]. split; [constructor|].
  intros k. unfold lbit, sbit. simpl. destruct (k / w), k; reflexivity.
Qed.

Lemma repr_Clear b l : repr b l -> repr (Clear b) [].
Proof. intros _. apply repr_empty. Qed.

Lemma s_resize_length l n v : length (s_resize l n v) = n.
Proof. apply (vresize_length l n v). Qed.

Lemma sbit_resize l n v k : sbit (s_resize l n v) k = if k <? n then (if k <? length l then sbit l k else v) else false.
Proof. unfold sbit. exact (nth_vresize l n v k false). Qed.

Lemma small_resize l n v : small w l -> (v < 2 ^ N.of_nat w)%N -> small w (vresize l n v).
Proof. intros; now apply Forall_vresize. Qed.

Lemma lbit_resize l n v k : lbit w (vresize l n v) k =
  if k / w <? n then (if k / w <? length l then lbit w l k else N.testbit v (N.of_nat (k mod w))) else false.
Proof.
  unfold lbit. rewrite nth_vresize. destruct (k / w <? n); [|apply N.bits_0].
  destruct (k / w <? length l); reflexivity.
Qed.

Lemma Resize_repr b l n v : repr b l -> exists b', Resize w b n v = Done b' /\ repr b' (s_resize l n v).
Proof.
  intros (HC & HL & HS & HB). destruct b as [bl n0]. cbn [blocks bitCount] in *. subst n0.
  unfold Resize. cbn [blocks bitCount]. rewrite (GetBitIndex_mod w), (ComputeBlockCount_nblocks w).
  set (fill := if v then fullBitMask w else 0%N).
  assert (HF : (fill < 2 ^ N.of_nat w)%N) by (unfold fill; destruct v; [apply (full_lt w) | apply (zero_lt w)]).
  assert (FB : forall j, j < w -> N.testbit fill (N.of_nat j) = v).
  { intros j Hj. unfold fill. destruct v; [|apply N.bits_0]. rewrite full_bits. apply N.ltb_lt. lia. }
  set (l1 := vresize bl (nblocks w n) fill).
  assert (HL1 : length l1 = nblocks w n) by apply vresize_length.
  assert (HS1 : small w l1) by (now apply small_resize).
  assert (HB1 : forall k, k < n -> lbit w l1 k = if k / w <? length bl then sbit l k else v).
  { intros k Hk. unfold l1. rewrite lbit_resize, HB. rewrite FB by (apply Nat.mod_upper_bound; lia).
    pose proof (div_lt_nblocks w k n Hk).
    destruct (Nat.ltb_spec (k / w) (nblocks w n)); [reflexivity | lia]. }
  destruct ((length l <? n) && (0 <? length l mod w) && v) eqn:EC.
  - apply andb_prop in EC as [EC Ev]. apply andb_prop in EC as [EC1 EC2].
    apply Nat.ltb_lt in EC1, EC2. subst v.
    assert (Hne : length bl <> 0). { rewrite HL. intros E. apply (proj1 (nblocks_0 w _)) in E. rewrite E in EC2. rewrite Nat.mod_0_l in EC2; lia. }
    destruct (Nat.eqb_spec (length bl) 0) as [|_]; [lia|].
    assert (HLE : length bl <= nblocks w n) by (rewrite HL; apply (nblocks_le w); lia).
    rewrite (shl_done w) by (apply Nat.mod_upper_bound; lia). cbn [bind].
    rewrite (vget_done l1 _ 0%N) by lia. cbn [bind]. rewrite vset_done by lia. cbn [bind].
    apply ResetExtraBits_repr; [now rewrite s_resize_length | now rewrite upd_length | |].
    + apply Forall_upd; [exact HS1|]. apply lor_lt; [now apply (small_nth w) | apply (trunc_lt w)].
    + intros k Hk. rewrite (lbit_upd w) by lia. rewrite sbit_resize.
      destruct (Nat.ltb_spec k n); [|lia].
      destruct (divmod_w w k) as [K1 K2]. destruct (divmod_w w (length l)) as [N1 N2].
      pose proof (nblocks_cases w (length l)) as NC. rewrite <- HL in NC.
      destruct (Nat.eqb_spec (k / w) (length bl - 1)) as [E|E].
      * rewrite N.lor_spec, trunc_bits, shiftl_bits, full_bits.
        replace (N.testbit (nth (length bl - 1) l1 0%N) (N.of_nat (k mod w))) with (lbit w l1 k)
          by (unfold lbit; now rewrite E).
        rewrite HB1 by assumption.
        destruct (Nat.ltb_spec (k / w) (length bl)); [|lia].
        assert (length l / w = length bl - 1) by lia.
        assert (w * (length l / w) = w * (k / w)) by congruence.
        destruct (Nat.ltb_spec k (length l)) as [L|L].
        -- destruct (N.leb_spec (N.of_nat (length l mod w)) (N.of_nat (k mod w))); [lia|]. simpl.
           now rewrite andb_false_r, orb_false_r.
        -- destruct (N.leb_spec (N.of_nat (length l mod w)) (N.of_nat (k mod w))); [|lia]. simpl.
           destruct (N.ltb_spec (N.of_nat (k mod w)) (N.of_nat w)); [|lia].
           destruct (N.ltb_spec (N.of_nat (k mod w) - N.of_nat (length l mod w)) (N.of_nat w)); [|lia].
           now rewrite orb_true_r.
      * rewrite HB1 by assumption.
        destruct (Nat.ltb_spec (k / w) (length bl)), (Nat.ltb_spec k (length l)); try reflexivity; nia.
  - cbn [bind]. apply ResetExtraBits_repr; [now rewrite s_resize_length | assumption | assumption |].
    intros k Hk. rewrite HB1, sbit_resize by assumption. destruct (Nat.ltb_spec k n); [|lia].
    destruct (divmod_w w k) as [K1 K2]. destruct (divmod_w w (length l)) as [N1 N2].
    pose proof (nblocks_cases w (length l)) as NC. rewrite <- HL in NC.
    destruct (Nat.ltb_spec (k / w) (length bl)), (Nat.ltb_spec k (length l)); try reflexivity; try nia.
    rewrite sbit_high by lia.
    destruct v; [|reflexivity]. rewrite andb_true_r in EC.
    destruct (Nat.ltb_spec (length l) n); [|lia]. simpl in EC. apply Nat.ltb_ge in EC.
    assert (length l = w * (length l / w)) by lia. nia.
Qed.

Lemma make_repr n v : exists b', make w n v = Done b' /\ repr b' (repeat v n).
Proof.
  unfold make. destruct (Resize_repr empty [] n v repr_empty) as (b' & E & R).
  exists b'. split; [exact E|]. unfold s_resize in R. rewrite firstn_nil in R. simpl in R.
  now rewrite Nat.sub_0_r in R.
Qed.

(** ** Point operations *)
Lemma block_of b l i : repr b l -> i < length l -> GetBlockIndex w i < length (blocks b).
Proof. intros (HC & HL & HS & HB) Hi. rewrite HL. apply (div_lt_nblocks w). exact Hi. Qed.

Lemma mask_done i : shl w 1 (GetBitIndex w i) = Done (N.shiftl 1 (N.of_nat (i mod w))).
Proof.
  rewrite (GetBitIndex_mod w). rewrite (shl_done w) by (apply Nat.mod_upper_bound; lia).
  f_equal. apply (trunc_id w). rewrite N.shiftl_1_l. apply N.pow_lt_mono_r; [lia|].
  pose proof (Nat.mod_upper_bound i w). lia.
Qed.

Lemma land_mask_testbit x j : negb (N.land x (N.shiftl 1 j) =? 0)%N = N.testbit x j.
Proof.
  destruct (N.testbit x j) eqn:E.
  - destruct (N.eqb_spec (N.land x (N.shiftl 1 j)) 0%N) as [Z|Z]; [|reflexivity].
    exfalso. assert (T : N.testbit (N.land x (N.shiftl 1 j)) j = false) by (rewrite Z; apply N.bits_0).
    rewrite N.land_spec, E, mask1_bits, N.eqb_refl in T. discriminate.
  - destruct (N.eqb_spec (N.land x (N.shiftl 1 j)) 0%N) as [Z|Z]; [reflexivity|].
    exfalso. apply Z. apply N.bits_inj. intros i. rewrite N.land_spec, mask1_bits, N.bits_0.
    destruct (N.eqb_spec i j) as [->|]; [now rewrite E | apply andb_false_r].
Qed.

Lemma Test_repr b l i : repr b l -> Test w b i = if i <? length l then Done (sbit l i) else Fault FAssert.
Proof.
  intros R. unfold Test. pose proof R as (HC & HL & HS & HB). rewrite HC.
  destruct (Nat.ltb_spec i (length l)) as [Hi|Hi]; [|reflexivity]. cbn [assert bind].
  rewrite (vget_done _ _ 0%N) by (eapply block_of; eauto). cbn [bind].
  rewrite mask_done. cbn [bind]. rewrite land_mask_testbit. f_equal. rewrite <- HB. reflexivity.
Qed.

(** The branch-free assignment of one bit inside a block. *)
Lemma set_bits x (v : bool) j i : (j < N.of_nat w)%N -> (i < N.of_nat w)%N ->
  N.testbit (N.lor (N.land x (bnot w (N.shiftl 1 j))) (N.land (if v then fullBitMask w else 0%N) (N.shiftl 1 j))) i
  = if (i =? j)%N then v else N.testbit x i.
Proof.
  intros Hj Hi. rewrite N.lor_spec, !N.land_spec, bnot_bits, !mask1_bits.
  destruct (N.ltb_spec i (N.of_nat w)); [|lia]. simpl.
  destruct (N.eqb_spec i j) as [->|]; simpl.
  - rewrite andb_false_r. simpl. rewrite andb_true_r.
    destruct v; [rewrite full_bits; now apply N.ltb_lt | apply N.bits_0].
  - now rewrite andb_true_r, andb_false_r, orb_false_r.
Qed.

Lemma set_block_lt x (v : bool) m : (x < 2 ^ N.of_nat w)%N ->
  (N.lor (N.land x (bnot w m)) (N.land (if v then fullBitMask w else 0%N) m) < 2 ^ N.of_nat w)%N.
Proof.
  intros Hx. apply lor_lt; apply land_lt; [exact Hx|]. destruct v; [apply (full_lt w) | apply (zero_lt w)].
Qed.

(** Replacing one block so that exactly one bit changes. *)
Lemma repr_upd_bit b l i x v : repr b l -> i < length l -> (x < 2 ^ N.of_nat w)%N ->
  (forall j, j < w -> N.testbit x (N.of_nat j) = if j =? i mod w then v else N.testbit (nth (i / w) (blocks b) 0%N) (N.of_nat j)) ->
  repr (mkB (upd (blocks b) (i / w) x) (bitCount b)) (upd l i v).
Proof.
  intros R Hi Hx HX. pose proof (block_of b l i R Hi) as HI. unfold GetBlockIndex in HI.
  destruct R as (HC & HL & HS & HB). split; [|split; [|split]]; cbn [blocks bitCount]; rewrite ?upd_length; auto.
  - now apply Forall_upd.
  - intros k. rewrite (lbit_upd w) by assumption. unfold sbit. rewrite nth_upd.
    destruct (Nat.ltb_spec i (length l)); [|lia]. rewrite andb_true_r.
    destruct (divmod_w w k) as [K1 K2]. destruct (divmod_w w i) as [I1 I2].
    destruct (Nat.eqb_spec (k / w) (i / w)) as [E|E].
    + rewrite HX by assumption. destruct (Nat.eqb_spec (k mod w) (i mod w)) as [E2|E2].
      * assert (k = i) by (rewrite K1, I1, E, E2; reflexivity). subst. now rewrite Nat.eqb_refl.
      * destruct (Nat.eqb_spec k i); [subst; lia|]. rewrite <- E. apply HB.
    + destruct (Nat.eqb_spec k i); [subst; lia|]. apply HB.
Qed.

Lemma Set_repr b l i v : repr b l ->
  if i <? length l then exists b', Set_ w b i v = Done b' /\ repr b' (s_set l i v)
  else Set_ w b i v = Fault FAssert.
Proof.
  intros R. unfold Set_. pose proof R as (HC & HL & HS & HB). rewrite HC.
  destruct (Nat.ltb_spec i (length l)) as [Hi|Hi]; [|reflexivity]. cbn [assert bind].
  pose proof (block_of b l i R Hi) as HI.
  rewrite (vget_done _ _ 0%N) by assumption. cbn [bind]. rewrite mask_done. cbn [bind].
  rewrite vset_done by assumption. cbn [bind]. eexists. split; [reflexivity|].
  unfold GetBlockIndex in *. rewrite <- HC. apply repr_upd_bit; auto.
  - apply set_block_lt. now apply (small_nth w).
  - intros j Hj. rewrite set_bits.
    + destruct (Nat.eqb_spec j (i mod w)), (N.eqb_spec (N.of_nat j) (N.of_nat (i mod w))); try reflexivity; lia.
    + pose proof (Nat.mod_upper_bound i w). lia.
    + lia.
Qed.

Lemma Set_done b l i v : repr b l -> i < length l -> exists b', Set_ w b i v = Done b' /\ repr b' (s_set l i v).
Proof. intros R Hi. pose proof (Set_repr b l i v R) as H. destruct (Nat.ltb_spec i (length l)); [exact H | lia]. Qed.

(** ** Whole-set operations *)
Lemma lbit_map f l k : (forall j, N.testbit (f 0%N) j = false) \/ k / w < length l ->
  lbit w (map f l) k = N.testbit (f (nth (k / w) l 0%N)) (N.of_nat (k mod w)).
Proof.
  intros H. unfold lbit. destruct (Nat.lt_ge_cases (k / w) (length l)) as [L|L].
  - rewrite (nth_indep _ 0%N (f 0%N)) by (now rewrite map_length). now rewrite map_nth.
  - destruct H as [H|H]; [|lia]. rewrite !nth_overflow by (rewrite ?map_length; lia). now rewrite H, N.bits_0.
Qed.

Lemma SetAll_repr b l v : repr b l -> exists b', SetAll w b v = Done b' /\ repr b' (s_fill l v).
Proof.
  intros (HC & HL & HS & HB). unfold SetAll. destruct v.
  - apply ResetExtraBits_repr.
    + unfold s_fill. now rewrite map_length.
    + rewrite map_length. congruence.
    + apply Forall_map. apply Forall_forall. intros; apply (full_lt w).
    + intros k Hk. rewrite HC in Hk. rewrite lbit_map.
      2: { right. rewrite HL. now apply (div_lt_nblocks w). }
      rewrite full_bits. unfold sbit, s_fill. rewrite (nth_indep _ false true) by (now rewrite map_length).
      change (nth k (map (fun _ => true) l) true) with (nth k (map (fun _ => true) l) ((fun _ : bool => true) false)).
      rewrite map_nth. apply N.ltb_lt. pose proof (Nat.mod_upper_bound k w). lia.
  - eexists. split; [reflexivity|]. split; [|split; [|split]]; cbn [blocks bitCount].
    + unfold s_fill. now rewrite map_length.
    + unfold s_fill. rewrite !map_length. congruence.
    + apply Forall_map. apply Forall_forall. intros; apply (zero_lt w).
    + intros k. rewrite lbit_map by (left; intros; apply N.bits_0). rewrite N.bits_0.
      unfold sbit, s_fill. change false with ((fun _ : bool => false) false) at 3. now rewrite map_nth.
Qed.

Lemma Flip_repr b l : repr b l -> exists b', Flip w b = Done b' /\ repr b' (s_flip l).
Proof.
  intros (HC & HL & HS & HB). unfold Flip.
  apply ResetExtraBits_repr.
  - unfold s_flip. now rewrite map_length.
  - rewrite map_length. congruence.
  - apply Forall_map. eapply Forall_impl; [|exact HS]. cbv beta. intros x Hx. apply lxor_lt; [exact Hx | apply (full_lt w)].
  - intros k Hk. rewrite HC in Hk. rewrite lbit_map.
    2: { right. rewrite HL. now apply (div_lt_nblocks w). }
    rewrite N.lxor_spec, full_bits.
    destruct (N.ltb_spec (N.of_nat (k mod w)) (N.of_nat w)) as [|C]; [|pose proof (Nat.mod_upper_bound k w); lia].
    rewrite xorb_true_r. fold (lbit w (blocks b) k). rewrite HB.
    unfold sbit, s_flip. rewrite (nth_indep (map negb l) false (negb false)) by (now rewrite map_length).
    now rewrite map_nth.
Qed.

(** SetBlock: bits [w*i, w*i+w) that exist are replaced by those of the given block. *)
Definition s_setblock (l : list bool) (i : nat) (x : N) : list bool :=
  map (fun k => if (w * i <=? k) && (k <? w * i + w) then N.testbit x (N.of_nat (k - w * i)) else sbit l k) (seq 0 (length l)).

Lemma sbit_map_seq f n k : sbit (map f (seq 0 n)) k = if k <? n then f k else false.
Proof. unfold sbit. apply nth_map_seq. Qed.

Lemma SetBlock_repr b l i x : repr b l ->
  if i <? nblocks w (length l) then exists b', SetBlock w b i x = Done b' /\ repr b' (s_setblock l i x)
  else SetBlock w b i x = Fault FAssert.
Proof.
  intros R. pose proof R as (HC & HL & HS & HB). unfold SetBlock. rewrite HL.
  destruct (Nat.ltb_spec i (nblocks w (length l))) as [Hi|Hi]; [|reflexivity]. cbn [assert bind].
  rewrite vset_done by lia. cbn [bind].
  assert (HU : forall k, lbit w (upd (blocks b) i (trunc w x)) k =
     if (w * i <=? k) && (k <? w * i + w) then N.testbit x (N.of_nat (k - w * i)) else sbit l k).
  { intros k. rewrite (lbit_upd w) by lia. destruct (divmod_w w k) as [K1 K2].
    destruct (Nat.eqb_spec (k / w) i) as [E|E].
    - subst i. destruct (Nat.leb_spec (w * (k / w)) k); [|lia].
      destruct (Nat.ltb_spec k (w * (k / w) + w)); [|lia]. simpl.
      rewrite trunc_bits. destruct (N.ltb_spec (N.of_nat (k mod w)) (N.of_nat w)); [|lia]. simpl.
      do 2 f_equal. lia.
    - rewrite HB. destruct (Nat.leb_spec (w * i) k), (Nat.ltb_spec k (w * i + w)); try reflexivity.
      exfalso. apply E. nia. }
  assert (LL : length (s_setblock l i x) = length l) by (unfold s_setblock; now rewrite map_length, seq_length).
  assert (HSm : small w (upd (blocks b) i (trunc w x))) by (apply Forall_upd; [exact HS | apply (trunc_lt w)]).
  destruct (Nat.eqb_spec i (nblocks w (length l) - 1)) as [E|E].
  - apply ResetExtraBits_repr; auto.
    + congruence.
    + rewrite upd_length. congruence.
    + intros k Hk. rewrite HU. unfold s_setblock. rewrite sbit_map_seq.
      destruct (Nat.ltb_spec k (length l)); [reflexivity | lia].
  - eexists. split; [reflexivity|]. split; [|split; [|split]]; cbn [blocks bitCount].
    + congruence.
    + rewrite upd_length. congruence.
    + exact HSm.
    + intros k. rewrite HU. unfold s_setblock. rewrite sbit_map_seq.
      destruct (Nat.ltb_spec k (length l)) as [|Hk]; [reflexivity|].
      destruct (nblocks_spec w (length l)).
      destruct (Nat.ltb_spec k (w * i + w)) as [C|C].
      * exfalso. assert (i + 1 <= nblocks w (length l) - 1) by lia. nia.
      * rewrite andb_false_r. apply sbit_high. lia.
Qed.

(** ** Unbounded accessors *)
Lemma s_resize_set_grow l i : length l <= i ->
  s_set (s_resize l (i + 1) false) i true = l ++ repeat false (i - length l) ++ [true].
Proof.
  intros H. apply (list_ext false).
  - unfold s_set. rewrite upd_length, s_resize_length, !app_length, repeat_length. simpl. lia.
  - intros k _. unfold s_set. rewrite nth_upd. fold (sbit (s_resize l (i+1) false) k).
    rewrite sbit_resize, s_resize_length, !nth_app_full, repeat_length, nth_repeat_full. unfold sbit.
    destruct (Nat.ltb_spec i (i + 1)); [|lia]. rewrite andb_true_r.
    destruct (Nat.eqb_spec k i), (Nat.ltb_spec k (i + 1)), (Nat.ltb_spec k (length l)),
      (Nat.ltb_spec (k - length l) (i - length l)); try reflexivity; try lia.
    + replace (k - length l - (i - length l)) with 0 by lia. reflexivity.
    + rewrite (nth_overflow [true]); [reflexivity | simpl; lia].
Qed.

Lemma UnboundedSet_repr b l i v : repr b l ->
  exists b', UnboundedSet w b i v = Done b' /\ repr b' (s_uset l i v).
Proof.
  intros R. pose proof R as (HC & HL & HS & HB). unfold UnboundedSet, s_uset. rewrite HC.
  destruct (Nat.ltb_spec i (length l)) as [Hi|Hi].
  - now apply Set_done.
  - destruct v.
    + destruct (Resize_repr b l (i + 1) false R) as (b1 & E1 & R1). rewrite E1. cbn [bind].
      destruct (Set_done b1 (s_resize l (i + 1) false) i true R1) as (b2 & E2 & R2).
      { rewrite s_resize_length. lia. }
      exists b2. split; [exact E2|]. now rewrite <- s_resize_set_grow.
    + eauto.
Qed.

Lemma UnboundedTest_repr b l i : repr b l -> UnboundedTest w b i = Done (sbit l i).
Proof.
  intros R. pose proof R as (HC & HL & HS & HB). unfold UnboundedTest. rewrite HC.
  destruct (Nat.ltb_spec i (length l)) as [Hi|Hi].
  - rewrite (Test_repr b l i R). destruct (Nat.ltb_spec i (length l)); [reflexivity | lia].
  - now rewrite sbit_high.
Qed.

(** ** Reverse *)
Lemma reverse_loop_repr fuel : forall b l i j, repr b l -> j < length l -> i + j = length l - 1 -> j <= fuel + i ->
  exists b' l', reverse_loop w fuel b i j = Done b' /\ repr b' l' /\ length l' = length l /\
    forall k, sbit l' k = if (i <=? k) && (k <=? j) then sbit l (length l - 1 - k) else sbit l k.
Proof.
  induction fuel as [|f IH]; intros b l i j R Hj Hij Hf; cbn [reverse_loop].
  - destruct (Nat.ltb_spec i j) as [|Hle]; [lia|].
    exists b, l. split; [reflexivity|]. split; [exact R|]. split; [reflexivity|].
    intros k. destruct (Nat.leb_spec i k), (Nat.leb_spec k j); simpl; try reflexivity. f_equal. lia.
  - destruct (Nat.ltb_spec i j) as [Hlt|Hge].
    + rewrite (Test_repr b l i R), (Test_repr b l j R).
      destruct (Nat.ltb_spec i (length l)); [|lia]. destruct (Nat.ltb_spec j (length l)); [|lia]. cbn [bind].
      destruct (Set_done b l i (sbit l j) R) as (b1 & E1 & R1); [lia|]. rewrite E1. cbn [bind].
      destruct (Set_done b1 _ j (sbit l i) R1) as (b2 & E2 & R2).
      { unfold s_set. rewrite upd_length. lia. }
      rewrite E2. cbn [bind].
      set (l2 := s_set (s_set l i (sbit l j)) j (sbit l i)) in *.
      assert (L2 : length l2 = length l) by (unfold l2, s_set; now rewrite !upd_length).
      assert (B2 : forall k, sbit l2 k = if k =? j then sbit l i else if k =? i then sbit l j else sbit l k).
      { intros k. unfold l2, s_set, sbit. rewrite !nth_upd, upd_length.
        destruct (Nat.ltb_spec i (length l)); [|lia]. destruct (Nat.ltb_spec j (length l)); [|lia].
        now rewrite !andb_true_r. }
      destruct (IH b2 l2 (i + 1) (j - 1) R2) as (b' & l' & E & R' & L' & B'); try lia.
      exists b', l'. split; [exact E|]. split; [exact R'|]. split; [congruence|].
      intros k. rewrite B', L2, !B2.
      destruct (Nat.leb_spec (i + 1) k), (Nat.leb_spec k (j - 1)), (Nat.leb_spec i k), (Nat.leb_spec k j); simpl; try lia;
      repeat match goal with |- context [?a =? ?b] => destruct (Nat.eqb_spec a b) end; try lia; try reflexivity;
      subst; f_equal; lia.
    + exists b, l. split; [reflexivity|]. split; [exact R|]. split; [reflexivity|].
      intros k. destruct (Nat.leb_spec i k), (Nat.leb_spec k j); simpl; try reflexivity. f_equal. lia.
Qed.

Lemma Reverse_repr b l : repr b l -> exists b', Reverse w b = Done b' /\ repr b' (rev l).
Proof.
  intros R. pose proof R as (HC & HL & HS & HB). unfold Reverse. rewrite HC.
  destruct (Nat.eqb_spec (length l) 0) as [E|E].
  - exists b. split; [reflexivity|]. destruct l; [exact R | discriminate].
  - destruct (reverse_loop_repr (length l) b l 0 (length l - 1) R) as (b' & l' & E' & R' & L' & B'); try lia.
    exists b'. split; [exact E'|]. replace (rev l) with l'; [exact R'|].
    apply (list_ext false); [now rewrite rev_length|]. intros k Hk. rewrite rev_nth by lia.
    specialize (B' k). unfold sbit in B'. rewrite B'.
    destruct (Nat.leb_spec k (length l - 1)); [|lia]. simpl. f_equal. lia.
Qed.

(** ** Strings *)
Lemma of_string_repr s : Forall (fun c => c = 48%N \/ c = 49%N) s ->
  exists b, of_string w s = Done b /\ repr b (rev (map (fun c => (c =? 49)%N) s)).
Proof.
  intros HF. unfold of_string. set (n := length s).
  rewrite (ComputeBlockCount_nblocks w).
  set (tgt := rev (map (fun c => (c =? 49)%N) s)).
  assert (LT : length tgt = n) by (unfold tgt; now rewrite rev_length, map_length).
  assert (BT : forall k, k < n -> sbit tgt k = (nth (n - 1 - k) s 0 =? 49)%N).
  { intros k Hk. unfold sbit, tgt. rewrite rev_nth by (rewrite map_length; exact Hk). rewrite map_length. fold n.
    change false with ((fun c => (c =? 49)%N) 0%N). rewrite map_nth. do 2 f_equal. lia. }
  destruct (foreach_range
    (fun i b => exists l, repr b l /\ length l = n /\ forall k, sbit l k = if n - i <=? k then sbit tgt k else false)
    (fun b i => c <- vget s i ;; if (c =? 49)%N then Set_ w b (bitCount b - i - 1) true
                                 else if (c =? 48)%N then Done b else Fault FAssert)
    0 n (mkB (vresize [] (nblocks w n) 0%N) n)) as (b & E & l & R & LL & B).
  - lia.
  - exists (repeat false n). split; [|split].
    + split; [|split; [|split]]; cbn [blocks bitCount].
      * now rewrite repeat_length.
      * now rewrite vresize_length, repeat_length.
      * apply small_resize; [constructor | apply (zero_lt w)].
      * intros k. rewrite lbit_resize. simpl. rewrite N.bits_0. unfold sbit. rewrite nth_repeat_full.
        destruct (_ <? _), (_ <? _); reflexivity.
    + apply repeat_length.
    + intros k. unfold sbit. rewrite nth_repeat_full. destruct (Nat.leb_spec (n - 0) k).
      * rewrite (nth_overflow tgt) by lia. now destruct (_ <? _).
      * now destruct (_ <? _).
  - intros i b Hi (l & R & LL & B). rewrite (vget_done s i 0%N) by (fold n; lia). cbn [bind].
    assert (Hc : nth i s 0%N = 48%N \/ nth i s 0%N = 49%N).
    { rewrite Forall_forall in HF. apply HF. apply nth_In. fold n. lia. }
    pose proof R as (HC & _). 
    assert (BI : sbit tgt (n - i - 1) = (nth i s 0 =? 49)%N).
    { rewrite BT by lia. do 2 f_equal. lia. }
    destruct Hc as [Hc|Hc]; rewrite Hc in *.
    + cbn -[Nat.sub]. exists b. split; [reflexivity|]. exists l. split; [exact R|]. split; [exact LL|].
      intros k. rewrite B. destruct (Nat.leb_spec (n - i) k), (Nat.leb_spec (n - (i + 1)) k); try reflexivity; try lia.
      replace k with (n - i - 1) by lia. rewrite BI. reflexivity.
    + cbn -[Nat.sub Set_]. rewrite HC, LL.
      destruct (Set_done b l (n - i - 1) true R) as (b' & E' & R'); [lia|].
      exists b'. split; [exact E'|]. exists (s_set l (n - i - 1) true). split; [exact R'|].
      unfold s_set. split; [now rewrite upd_length|].
      intros k. unfold sbit at 1. rewrite nth_upd, LL. fold (sbit l k). rewrite B.
      destruct (Nat.ltb_spec (n - i - 1) n); [|lia]. rewrite andb_true_r.
      destruct (Nat.eqb_spec k (n - i - 1)) as [->|].
      * rewrite BI. destruct (Nat.leb_spec (n - (i + 1)) (n - i - 1)); [reflexivity | lia].
      * destruct (Nat.leb_spec (n - i) k), (Nat.leb_spec (n - (i + 1)) k); try reflexivity; lia.
  - exists b. split; [exact E|]. replace tgt with l; [exact R|].
    apply (list_ext false); [congruence|]. intros k _. specialize (B k). unfold sbit in B. rewrite B.
    rewrite Nat.sub_diag. reflexivity.
Qed.

Lemma of_string_bad s : ~ Forall (fun c => c = 48%N \/ c = 49%N) s -> of_string w s = Fault FAssert.
Proof.
  (* some prefix of '0'/'1' characters is processed, then the offending one asserts *)
  intros HF. unfold of_string. set (n := length s).
  assert (EX : exists p c r, s = p ++ c :: r /\ Forall (fun c => c = 48%N \/ c = 49%N) p /\ c <> 48%N /\ c <> 49%N).
  { clear n. induction s as [|x s IH]; [exfalso; apply HF; constructor|].
    destruct (N.eq_dec x 48) as [->|N8]; [|destruct (N.eq_dec x 49) as [->|N9]].
    - destruct IH as (p & c & r & E & Hp & Hc); [intro C; apply HF; constructor; auto|].
      exists (48%N :: p), c, r. rewrite E. split; [reflexivity|]. split; [constructor; auto | exact Hc].
    - destruct IH as (p & c & r & E & Hp & Hc); [intro C; apply HF; constructor; auto|].
      exists (49%N :: p), c, r. rewrite E. split; [reflexivity|]. split; [constructor; auto | exact Hc].
    - exists [], x, s. auto. }
  destruct EX as (p & c & r & E & Hp & Hc8 & Hc9).
  assert (Hn : n = length p + S (length r)) by (unfold n; rewrite E, app_length; reflexivity).
  rewrite (ComputeBlockCount_nblocks w).
  replace (range 0 n) with (range 0 (length p) ++ range (length p) n).
  2: { unfold range. rewrite !Nat.sub_0_r. rewrite Hn. replace (length p + S (length r) - length p) with (S (length r)) by lia.
       rewrite <- seq_app. reflexivity. }
  rewrite foreach_app.
  destruct (foreach_range
    (fun i b => exists l, repr b l /\ length l = n)
    (fun b i => c <- vget s i ;; if (c =? 49)%N then Set_ w b (bitCount b - i - 1) true
                                 else if (c =? 48)%N then Done b else Fault FAssert)
    0 (length p) (mkB (vresize [] (nblocks w n) 0%N) n)) as (b & E' & l & R & LL).
  - lia.
  - exists (repeat false n). split; [|apply repeat_length].
    split; [|split; [|split]]; cbn [blocks bitCount].
    + now rewrite repeat_length.
    + now rewrite vresize_length, repeat_length.
    + apply small_resize; [constructor | apply (zero_lt w)].
    + intros k. rewrite lbit_resize. simpl. rewrite N.bits_0. unfold sbit. rewrite nth_repeat_full.
      destruct (_ <? _), (_ <? _); reflexivity.
  - intros i b Hi (l & R & LL). rewrite (vget_done s i 0%N) by (fold n; lia). cbn [bind].
    assert (Hc : nth i s 0%N = 48%N \/ nth i s 0%N = 49%N).
    { rewrite E, app_nth1 by lia. rewrite Forall_forall in Hp. apply Hp. apply nth_In. lia. }
    pose proof R as (HC & _). destruct Hc as [Hc|Hc]; rewrite Hc in *.
    + exists b. split; [reflexivity|]. eauto.
    + cbn -[Nat.sub Set_]. rewrite HC, LL.
      destruct (Set_done b l (n - i - 1) true R) as (b' & E'' & R'); [lia|].
      exists b'. split; [exact E''|]. exists (s_set l (n - i - 1) true). split; [exact R'|].
      unfold s_set. now rewrite upd_length.
  - match goal with |- bind ?x _ = _ => replace x with (Done b) by (symmetry; exact E') end. cbn [bind].
    unfold range. replace (n - length p) with (S (length r)) by lia. cbn [seq foreach].
    rewrite (vget_done s (length p) 0%N) by (fold n; lia). cbn [bind].
    rewrite E, app_nth2, Nat.sub_diag by lia. cbn [nth].
    destruct (N.eqb_spec c 49); [contradiction|]. destruct (N.eqb_spec c 48); [contradiction|]. reflexivity.
Qed.

Lemma ToString_repr b l : repr b l -> ToString w b = Done (s_string l).
Proof.
  intros R. pose proof R as (HC & HL & HS & HB). unfold ToString. rewrite HC. set (n := length l).
  destruct (foreach_range
    (fun i (str : list N) => length str = n /\ forall k, k < n ->
       nth k str 0%N = if n - i <=? k then (if sbit l (n - 1 - k) then 49%N else 48%N) else 48%N)
    (fun str i => t <- Test w b i ;; if (t : bool) then vset str (n - i - 1) 49%N else Done str)
    0 n (repeat 48%N n)) as (str & E & LL & B).
  - lia.
  - split; [apply repeat_length|]. intros k Hk. rewrite nth_repeat_full.
    destruct (Nat.ltb_spec k n); [|lia]. destruct (Nat.leb_spec (n - 0) k); [lia | reflexivity].
  - intros i str Hi (LL & B). rewrite (Test_repr b l i R). fold n.
    destruct (Nat.ltb_spec i n); [|lia]. cbn [bind].
    destruct (sbit l i) eqn:Ei.
    + rewrite vset_done by lia. eexists. split; [reflexivity|]. split; [now rewrite upd_length|].
      intros k Hk. rewrite nth_upd, LL. destruct (Nat.ltb_spec (n - i - 1) n); [|lia]. rewrite andb_true_r.
      destruct (Nat.eqb_spec k (n - i - 1)) as [->|].
      * destruct (Nat.leb_spec (n - (i + 1)) (n - i - 1)); [|lia].
        replace (n - 1 - (n - i - 1)) with i by lia. now rewrite Ei.
      * rewrite B by assumption. destruct (Nat.leb_spec (n - i) k), (Nat.leb_spec (n - (i + 1)) k); try reflexivity; lia.
    + eexists. split; [reflexivity|]. split; [exact LL|].
      intros k Hk. rewrite B by assumption.
      destruct (Nat.leb_spec (n - i) k), (Nat.leb_spec (n - (i + 1)) k); try reflexivity; try lia.
      replace (n - 1 - k) with i by lia. now rewrite Ei.
  - unfold n in E at 3. match goal with |- ?x = _ => replace x with (Done str) by (symmetry; exact E) end.
    f_equal. apply (list_ext 0%N).
    + unfold s_string. now rewrite map_length, rev_length.
    + intros k Hk. rewrite B by lia. rewrite Nat.sub_diag. cbn [Nat.leb].
      unfold s_string. rewrite (nth_map_full _ _ _ _ false), rev_length. fold n.
      destruct (Nat.ltb_spec k n); [|lia].
      rewrite rev_nth by (fold n; lia). unfold sbit. fold n.
      replace (n - S k) with (n - 1 - k) by lia. reflexivity.
Qed.

End P.
