(** PerformsAND / PerformsOR / PerformsXOR / PerformsNOT on a store: destination and operands may be the same object. *)
From Verif Require Import Base CInt MathModel BitsetModel BitsetSpec BitsetBits BitsetProofs BitsetFind.
Open Scope nat_scope.

Lemma s_zip_length f a b : length (s_zip f a b) = Nat.max (length a) (length b).
Proof. unfold s_zip. now rewrite map_length, seq_length. Qed.

Lemma sbit_zip f a b k : f false false = false -> sbit (s_zip f a b) k = f (sbit a k) (sbit b k).
Proof.
  intros H. unfold s_zip. rewrite sbit_map_seq. destruct (Nat.ltb_spec k (Nat.max (length a) (length b))); [reflexivity|].
  rewrite !sbit_high by lia. now rewrite H.
Qed.

Notation store := (nat -> bitset).

Section L.
Variable w : nat.
Context {Hw : width w}.
Let Wpos : 0 < w := width_pos w Hw.

(** The store [st] differs from [st1] only in the blocks of [d] below [i]. *)
Definition agree (d : nat) (st1 st : store) (i : nat) : Prop :=
  (forall r, r <> d -> st r = st1 r) /\ length (blocks (st d)) = length (blocks (st1 d)) /\
  bitCount (st d) = bitCount (st1 d) /\ (forall c, i <= c -> nth c (blocks (st d)) 0%N = nth c (blocks (st1 d)) 0%N).

Lemma store_loop (st1 : store) d lo hi (val : nat -> N) (g : store -> nat -> outcome store) :
  hi <= length (blocks (st1 d)) -> lo <= hi ->
  (forall st i, lo <= i < hi -> agree d st1 st i -> g st i = sput_block st d i (val i)) ->
  exists st', foreach (range lo hi) g st1 = Done st' /\ (forall r, r <> d -> st' r = st1 r) /\
    length (blocks (st' d)) = length (blocks (st1 d)) /\ bitCount (st' d) = bitCount (st1 d) /\
    (forall c, nth c (blocks (st' d)) 0%N = if (lo <=? c) && (c <? hi) then val c else nth c (blocks (st1 d)) 0%N).
Proof.
  intros Hhi Hlo Hg.
  destruct (foreach_range (fun i st => (forall r, r <> d -> st r = st1 r) /\
    length (blocks (st d)) = length (blocks (st1 d)) /\ bitCount (st d) = bitCount (st1 d) /\
    (forall c, nth c (blocks (st d)) 0%N = if (lo <=? c) && (c <? i) then val c else nth c (blocks (st1 d)) 0%N))
    g lo hi st1 Hlo) as (st' & E & H).
  - repeat split; auto. intros c. destruct (Nat.leb_spec lo c), (Nat.ltb_spec c lo); try reflexivity; lia.
  - intros i st Hi (H1 & H2 & H3 & H4). rewrite Hg; [|exact Hi|].
    + unfold sput_block. rewrite vset_done by lia. cbn [bind]. eexists. split; [reflexivity|].
      unfold sput. rewrite Nat.eqb_refl. cbn [blocks bitCount]. rewrite upd_length. repeat split; auto.
      * intros r Hr. destruct (Nat.eqb_spec r d); [lia | auto].
      * intros c. rewrite nth_upd, H4. destruct (Nat.ltb_spec i (length (blocks (st d)))); [|lia]. rewrite andb_true_r.
        destruct (Nat.eqb_spec c i), (Nat.leb_spec lo c), (Nat.ltb_spec c i), (Nat.ltb_spec c (i + 1));
          cbn [andb]; try lia; try reflexivity. now subst.
    + repeat split; auto. intros c Hc. rewrite H4. destruct (Nat.leb_spec lo c), (Nat.ltb_spec c i); try reflexivity; lia.
  - exists st'. auto.
Qed.

(** The destination after [m_blocks.resize(n)] and the assignment of [m_bitCount]. *)
Lemma resized (st : store) d r n m c : r = d \/ r <> d -> length (blocks (st r)) <= n -> c < length (blocks (st r)) ->
  let st1 := sput st d (mkB (vresize (blocks (st d)) n 0%N) m) in
  c < length (blocks (st1 r)) /\ nth c (blocks (st1 r)) 0%N = nth c (blocks (st r)) 0%N.
Proof.
  intros _ Hn Hc st1. unfold st1, sput. destruct (Nat.eqb_spec r d) as [->|]; [|auto]. cbn [blocks].
  rewrite vresize_length, nth_vresize. split; [lia|].
  destruct (Nat.ltb_spec c n); [|lia]. destruct (Nat.ltb_spec c (length (blocks (st d)))); [reflexivity | lia].
Qed.

Lemma agree_get d st1 st i r : agree d st1 st i -> i < length (blocks (st1 r)) ->
  GetBlock (st r) i = Done (nth i (blocks (st1 r)) 0%N).
Proof.
  intros (H1 & H2 & H3 & H4) Hi. destruct (Nat.eq_dec r d) as [->|Hr].
  - rewrite (GetBlock_done w) by lia. now rewrite H4.
  - rewrite H1 by assumption. now apply (GetBlock_done w).
Qed.

Lemma logic_finish (st : store) d n L :
  bitCount (st d) = n -> n = length L -> length (blocks (st d)) = nblocks w n -> small w (blocks (st d)) ->
  (forall k, k < n -> lbit w (blocks (st d)) k = sbit L k) ->
  exists st', s_ResetExtraBits w st d = Done st' /\ repr w (st' d) L /\ (forall r, r <> d -> st' r = st r).
Proof.
  intros Hc Hn Hl Hs Hb. unfold s_ResetExtraBits.
  destruct (ResetExtraBits_repr w (blocks (st d)) n L Hn Hl Hs Hb) as (b' & E & R).
  replace (st d) with (mkB (blocks (st d)) n) by (rewrite <- Hc; now destruct (st d)). rewrite E. cbn [bind].
  eexists. split; [reflexivity|]. unfold sput. rewrite Nat.eqb_refl. split; [exact R|].
  intros r Hr. destruct (Nat.eqb_spec r d); [lia | reflexivity].
Qed.

Lemma zip_bits (op : N -> N -> N) f A B la lb k : (forall x y j, N.testbit (op x y) j = f (N.testbit x j) (N.testbit y j)) ->
  f false false = false -> repr w A la -> repr w B lb ->
  N.testbit (op (nth (k / w) (blocks A) 0%N) (nth (k / w) (blocks B) 0%N)) (N.of_nat (k mod w)) = sbit (s_zip f la lb) k.
Proof.
  intros Hop Hf (_ & _ & _ & HA) (_ & _ & _ & HB). rewrite Hop, (sbit_zip f) by assumption.
  rewrite <- HA, <- HB. reflexivity.
Qed.

Lemma nblocks_max a b : Nat.max (nblocks w a) (nblocks w b) = nblocks w (Nat.max a b).
Proof.
  destruct (Nat.le_ge_cases a b) as [H|H]; pose proof (nblocks_le w _ _ H).
  - rewrite !Nat.max_r by assumption. reflexivity.
  - rewrite !Nat.max_l by assumption. reflexivity.
Qed.

Lemma PerformsAND_repr st d a b la lb : repr w (st a) la -> repr w (st b) lb ->
  exists st', PerformsAND w st d a b = Done st' /\ repr w (st' d) (s_zip andb la lb) /\ (forall r, r <> d -> st' r = st r).
Proof.
  intros Ra Rb. pose proof Ra as (HCa & HLa & HSa & HBa). pose proof Rb as (HCb & HLb & HSb & HBb).
  unfold PerformsAND, GetBlockCount, GetSize. cbv zeta.
  set (minc := Nat.min (length (blocks (st a))) (length (blocks (st b)))).
  set (maxc := Nat.max (length (blocks (st a))) (length (blocks (st b)))).
  set (st0 := sput st d (mkB (vresize (blocks (st d)) maxc 0%N) (bitCount (st d)))).
  assert (Hsz : Nat.max (bitCount (st0 a)) (bitCount (st0 b)) = Nat.max (length la) (length lb)).
  { unfold st0, sput. destruct (Nat.eqb_spec a d), (Nat.eqb_spec b d); subst; cbn [bitCount]; congruence. }
  rewrite Hsz. clear Hsz. set (n := Nat.max (length la) (length lb)).
  assert (Hst1 : forall r, sput st0 d (mkB (blocks (st0 d)) n) r = sput st d (mkB (vresize (blocks (st d)) maxc 0%N) n) r).
  { intros r. unfold st0, sput. rewrite Nat.eqb_refl; destruct (r =? d); reflexivity. }
  set (st1 := sput st0 d (mkB (blocks (st0 d)) n)) in *.
  assert (Hd : length (blocks (st1 d)) = maxc /\ bitCount (st1 d) = n).
  { rewrite Hst1. unfold sput. rewrite Nat.eqb_refl. cbn. now rewrite vresize_length. }
  destruct Hd as [Hd1 Hd2].
  assert (Ga : forall c, c < length (blocks (st a)) -> c < length (blocks (st1 a)) /\ nth c (blocks (st1 a)) 0%N = nth c (blocks (st a)) 0%N).
  { intros c Hc. rewrite Hst1. apply resized; [lia | unfold maxc; lia | exact Hc]. }
  assert (Gb : forall c, c < length (blocks (st b)) -> c < length (blocks (st1 b)) /\ nth c (blocks (st1 b)) 0%N = nth c (blocks (st b)) 0%N).
  { intros c Hc. rewrite Hst1. apply resized; [lia | unfold maxc; lia | exact Hc]. }
  destruct (store_loop st1 d 0 minc (fun i => N.land (nth i (blocks (st a)) 0%N) (nth i (blocks (st b)) 0%N))
    (fun st i => x <- GetBlock (st a) i ;; y <- GetBlock (st b) i ;; sput_block st d i (N.land x y)))
    as (st2 & E2 & O2 & L2 & C2 & N2).
  - rewrite Hd1. unfold minc, maxc. lia.
  - lia.
  - intros st' i Hi Hag. destruct (Ga i) as [A1 A2]; [unfold minc in Hi; lia|]. destruct (Gb i) as [B1 B2]; [unfold minc in Hi; lia|].
    rewrite !(agree_get d st1 st' i _ Hag) by assumption. cbn [bind]. now rewrite A2, B2.
  - rewrite E2. cbn [bind].
    destruct (store_loop st2 d minc maxc (fun _ => 0%N) (fun st i => sput_block st d i 0%N)) as (st3 & E3 & O3 & L3 & C3 & N3).
    + rewrite L2, Hd1. lia.
    + unfold minc, maxc. lia.
    + reflexivity.
    + rewrite E3. cbn [bind].
      assert (NV : forall c, c < maxc -> nth c (blocks (st3 d)) 0%N = N.land (nth c (blocks (st a)) 0%N) (nth c (blocks (st b)) 0%N)).
      { intros c Hc. rewrite N3, N2. destruct (Nat.leb_spec minc c) as [Q|Q], (Nat.ltb_spec c maxc); cbn [andb]; try lia.
        - destruct (Nat.lt_ge_cases c (length (blocks (st a)))).
          + rewrite (nth_overflow (blocks (st b))) by (unfold minc in Q; lia). now rewrite N.land_0_r.
          + rewrite (nth_overflow (blocks (st a))) by assumption. now rewrite N.land_0_l.
        - destruct (Nat.leb_spec 0 c), (Nat.ltb_spec c minc); try lia. reflexivity. }
      assert (HM : maxc = nblocks w n) by (unfold maxc, n; rewrite HLa, HLb; apply nblocks_max).
      destruct (logic_finish st3 d n (s_zip andb la lb)) as (st' & E' & R' & O').
      * congruence.
      * now rewrite s_zip_length.
      * congruence.
      * apply (Forall_of_nth _ _ 0%N). intros i Hi. rewrite NV by lia. apply land_lt. now apply (small_nth w).
      * intros k Hk. unfold lbit. rewrite NV by (rewrite HM; now apply (div_lt_nblocks w)).
        apply (zip_bits N.land andb); auto. intros; apply N.land_spec.
      * exists st'. split; [exact E'|]. split; [exact R'|]. intros r Hr.
        rewrite O', O3, O2, Hst1 by assumption. unfold sput. destruct (Nat.eqb_spec r d); [lia | reflexivity].
Qed.

Lemma PerformsOp_repr op f st d a b la lb :
  (forall x y j, N.testbit (op x y) j = f (N.testbit x j) (N.testbit y j)) -> f false false = false ->
  (forall x, op x 0%N = x) -> (forall x, op 0%N x = x) ->
  repr w (st a) la -> repr w (st b) lb ->
  exists st', PerformsOp w op st d a b = Done st' /\ repr w (st' d) (s_zip f la lb) /\ (forall r, r <> d -> st' r = st r).
Proof.
  intros Hop Hf Op0 Op1 Ra Rb. pose proof Ra as (HCa & HLa & HSa & HBa). pose proof Rb as (HCb & HLb & HSb & HBb).
  unfold PerformsOp, GetBlockCount, GetSize. cbv zeta. rewrite HCa, HCb.
  set (greater := if length lb <? length la then a else b).
  set (lesser := if length lb <? length la then b else a).
  set (minc := length (blocks (st lesser))). set (maxc := length (blocks (st greater))).
  set (n := Nat.max (length la) (length lb)).
  assert (HM : maxc = nblocks w n /\ length (blocks (st a)) <= maxc /\ length (blocks (st b)) <= maxc /\ minc <= maxc
     /\ bitCount (st greater) = n).
  { unfold maxc, minc, greater, lesser, n. destruct (Nat.ltb_spec (length lb) (length la)) as [Q|Q].
    - rewrite HLa, HLb, HCa, !Nat.max_l by lia. pose proof (nblocks_le w (length lb) (length la) ltac:(lia)). repeat split; auto.
    - rewrite HLa, HLb, HCb, !Nat.max_r by lia. pose proof (nblocks_le w (length la) (length lb) ltac:(lia)). repeat split; auto. }
  destruct HM as (HM & Ma & Mb & Mm & HCg).
  assert (OV : forall c, minc <= c -> c < maxc -> nth c (blocks (st greater)) 0%N = op (nth c (blocks (st a)) 0%N) (nth c (blocks (st b)) 0%N)).
  { intros c H1 H2. unfold greater, minc, maxc, lesser in *. destruct (length lb <? length la).
    - rewrite (nth_overflow (blocks (st b))) by assumption. now rewrite Op0.
    - rewrite (nth_overflow (blocks (st a))) by assumption. now rewrite Op1. }
  set (st0 := sput st d (mkB (vresize (blocks (st d)) maxc 0%N) (bitCount (st d)))).
  assert (Hsz : bitCount (st0 greater) = n).
  { unfold st0, sput. destruct (Nat.eqb_spec greater d); cbn [bitCount]; congruence. }
  rewrite Hsz. clear Hsz.
  assert (Hst1 : forall r, sput st0 d (mkB (blocks (st0 d)) n) r = sput st d (mkB (vresize (blocks (st d)) maxc 0%N) n) r).
  { intros r. unfold st0, sput. rewrite Nat.eqb_refl; destruct (r =? d); reflexivity. }
  set (st1 := sput st0 d (mkB (blocks (st0 d)) n)) in *.
  assert (Hd : length (blocks (st1 d)) = maxc /\ bitCount (st1 d) = n).
  { rewrite Hst1. unfold sput. rewrite Nat.eqb_refl. cbn. now rewrite vresize_length. }
  destruct Hd as [Hd1 Hd2].
  assert (G : forall r c, length (blocks (st r)) <= maxc -> c < length (blocks (st r)) ->
     c < length (blocks (st1 r)) /\ nth c (blocks (st1 r)) 0%N = nth c (blocks (st r)) 0%N).
  { intros r c Hr Hc. rewrite Hst1. apply resized; [lia | exact Hr | exact Hc]. }
  assert (MinA : minc <= length (blocks (st a)) /\ minc <= length (blocks (st b))).
  { unfold minc, maxc, lesser, greater in *. destruct (length lb <? length la); lia. }
  destruct (store_loop st1 d 0 minc (fun i => op (nth i (blocks (st a)) 0%N) (nth i (blocks (st b)) 0%N))
    (fun st i => x <- GetBlock (st a) i ;; y <- GetBlock (st b) i ;; sput_block st d i (op x y)))
    as (st2 & E2 & O2 & L2 & C2 & N2).
  - rewrite Hd1. lia.
  - lia.
  - intros st' i Hi Hag. destruct (G a i) as [A1 A2]; [assumption | lia|]. destruct (G b i) as [B1 B2]; [assumption | lia|].
    rewrite !(agree_get d st1 st' i _ Hag) by assumption. cbn [bind]. now rewrite A2, B2.
  - rewrite E2. cbn [bind].
    destruct (store_loop st2 d minc maxc (fun i => nth i (blocks (st greater)) 0%N)
      (fun st i => x <- GetBlock (st greater) i ;; sput_block st d i x)) as (st3 & E3 & O3 & L3 & C3 & N3).
    + rewrite L2, Hd1. lia.
    + exact Mm.
    + intros st' i Hi Hag. destruct (G greater i) as [G1 G2]; [unfold maxc; lia | unfold maxc in Hi; lia|].
      assert (i < length (blocks (st2 greater)) /\ nth i (blocks (st2 greater)) 0%N = nth i (blocks (st greater)) 0%N) as [G3 G4].
      { destruct (Nat.eq_dec greater d) as [Ed|Ed].
        - rewrite Ed in G1, G2 |- *. rewrite L2, N2. split; [exact G1|].
          destruct (Nat.leb_spec 0 i), (Nat.ltb_spec i minc); cbn [andb]; try lia; exact G2.
        - rewrite O2 by assumption. auto. }
      rewrite (agree_get d st2 st' i greater Hag G3). cbn [bind]. now rewrite G4.
    + rewrite E3. cbn [bind].
      assert (NV : forall c, c < maxc -> nth c (blocks (st3 d)) 0%N = op (nth c (blocks (st a)) 0%N) (nth c (blocks (st b)) 0%N)).
      { intros c Hc. rewrite N3, N2. destruct (Nat.leb_spec minc c) as [Q|Q], (Nat.ltb_spec c maxc); cbn [andb]; try lia.
        - now apply OV.
        - destruct (Nat.leb_spec 0 c), (Nat.ltb_spec c minc); try lia. reflexivity. }
      destruct (logic_finish st3 d n (s_zip f la lb)) as (st' & E' & R' & O').
      * congruence.
      * now rewrite s_zip_length.
      * congruence.
      * apply (Forall_of_nth _ _ 0%N). intros i Hi. rewrite NV by lia.
        apply lt_pow2_bits. intros j Hj. rewrite Hop.
        rewrite !(block_high w) by (try assumption; now apply (small_nth w)). exact Hf.
      * intros k Hk. unfold lbit. rewrite NV by (rewrite HM; now apply (div_lt_nblocks w)).
        now apply (zip_bits op f).
      * exists st'. split; [exact E'|]. split; [exact R'|]. intros r Hr.
        rewrite O', O3, O2, Hst1 by assumption. unfold sput. destruct (Nat.eqb_spec r d); [lia | reflexivity].
Qed.

Lemma PerformsOR_repr st d a b la lb : repr w (st a) la -> repr w (st b) lb ->
  exists st', PerformsOR w st d a b = Done st' /\ repr w (st' d) (s_zip orb la lb) /\ (forall r, r <> d -> st' r = st r).
Proof.
  apply (PerformsOp_repr N.lor orb); [intros; apply N.lor_spec | reflexivity | apply N.lor_0_r | apply N.lor_0_l].
Qed.

Lemma PerformsXOR_repr st d a b la lb : repr w (st a) la -> repr w (st b) lb ->
  exists st', PerformsXOR w st d a b = Done st' /\ repr w (st' d) (s_zip xorb la lb) /\ (forall r, r <> d -> st' r = st r).
Proof.
  apply (PerformsOp_repr N.lxor xorb); [intros; apply N.lxor_spec | reflexivity | apply N.lxor_0_r | apply N.lxor_0_l].
Qed.

Lemma PerformsNOT_repr st d a la : repr w (st a) la ->
  exists st', PerformsNOT w st d a = Done st' /\ repr w (st' d) (s_flip la) /\ (forall r, r <> d -> st' r = st r).
Proof.
  intros Ra. pose proof Ra as (HCa & HLa & HSa & HBa). unfold PerformsNOT, GetBlockCount, GetSize. cbv zeta.
  set (maxc := length (blocks (st a))).
  set (st0 := sput st d (mkB (vresize (blocks (st d)) maxc 0%N) (bitCount (st d)))).
  assert (Hsz : bitCount (st0 a) = length la).
  { unfold st0, sput. destruct (Nat.eqb_spec a d); subst; cbn [bitCount]; congruence. }
  rewrite Hsz. clear Hsz. set (n := length la) in *.
  assert (Hst1 : forall r, sput st0 d (mkB (blocks (st0 d)) n) r = sput st d (mkB (vresize (blocks (st d)) maxc 0%N) n) r).
  { intros r. unfold st0, sput. rewrite Nat.eqb_refl; destruct (r =? d); reflexivity. }
  set (st1 := sput st0 d (mkB (blocks (st0 d)) n)) in *.
  assert (Hd : length (blocks (st1 d)) = maxc /\ bitCount (st1 d) = n).
  { rewrite Hst1. unfold sput. rewrite Nat.eqb_refl. cbn. now rewrite vresize_length. }
  destruct Hd as [Hd1 Hd2]. rewrite Hd1.
  assert (Ga : forall c, c < length (blocks (st a)) -> c < length (blocks (st1 a)) /\ nth c (blocks (st1 a)) 0%N = nth c (blocks (st a)) 0%N).
  { intros c Hc. rewrite Hst1. apply resized; [lia | unfold maxc; lia | exact Hc]. }
  destruct (store_loop st1 d 0 maxc (fun i => bnot w (nth i (blocks (st a)) 0%N))
    (fun st i => x <- GetBlock (st a) i ;; sput_block st d i (bnot w x)))
    as (st2 & E2 & O2 & L2 & C2 & N2).
  - lia.
  - lia.
  - intros st' i Hi Hag. destruct (Ga i) as [A1 A2]; [unfold maxc in Hi; lia|].
    rewrite !(agree_get d st1 st' i _ Hag) by assumption. cbn [bind]. now rewrite A2.
  - rewrite E2. cbn [bind].
    assert (NV : forall c, c < maxc -> nth c (blocks (st2 d)) 0%N = bnot w (nth c (blocks (st a)) 0%N)).
    { intros c Hc. rewrite N2. destruct (Nat.leb_spec 0 c), (Nat.ltb_spec c maxc); try lia. reflexivity. }
    destruct (logic_finish st2 d n (s_flip la)) as (st' & E' & R' & O').
    + congruence.
    + unfold s_flip. now rewrite map_length.
    + unfold maxc in *. congruence.
    + apply (Forall_of_nth _ _ 0%N). intros i Hi. rewrite NV by lia. apply (bnot_lt w).
    + intros k Hk. unfold lbit. rewrite NV by (unfold maxc; rewrite HLa; now apply (div_lt_nblocks w)).
      rewrite (bnot_bits w). destruct (divmod_w w k) as [_ K]. destruct (N.ltb_spec (N.of_nat (k mod w)) (N.of_nat w)); [|lia].
      cbn [andb]. fold (lbit w (blocks (st a)) k). rewrite HBa. unfold sbit, s_flip.
      rewrite (nth_map_full negb la k false false). fold n. destruct (Nat.ltb_spec k n); [reflexivity | lia].
    + exists st'. split; [exact E'|]. split; [exact R'|]. intros r Hr.
      rewrite O', O2, Hst1 by assumption. unfold sput. destruct (Nat.eqb_spec r d); [lia | reflexivity].
Qed.

End L.
