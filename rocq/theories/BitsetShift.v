(** ShiftLeft and ShiftRight. *)
From Verif Require Import Base CInt MathModel BitsetModel BitsetSpec BitsetBits BitsetProofs.
Open Scope nat_scope.

Lemma s_shl_length l k : length (s_shl l k) = length l.
Proof. unfold s_shl. rewrite firstn_length, app_length, repeat_length. lia. Qed.

Lemma sbit_shl l n k : sbit (s_shl l n) k = if k <? length l then (if k <? n then false else sbit l (k - n)) else false.
Proof.
  unfold sbit, s_shl. rewrite nth_firstn, nth_app_full, repeat_length, nth_repeat_full.
  destruct (k <? length l), (k <? n); reflexivity.
Qed.

Lemma s_shr_length l k : length (s_shr l k) = length l.
Proof. unfold s_shr. rewrite app_length, skipn_length, repeat_length. lia. Qed.

Lemma sbit_shr l n k : sbit (s_shr l n) k = sbit l (k + n).
Proof.
  unfold sbit, s_shr. rewrite nth_app_full, skipn_length, nth_skipn, nth_repeat_full, (Nat.add_comm n k).
  destruct (Nat.ltb_spec k (length l - n)); [reflexivity|].
  rewrite (nth_overflow l) by lia. now destruct (_ <? _).
Qed.

Section S.
Variable w : nat.
Context {Hw : width w}.
Let Wpos : 0 < w := width_pos w Hw.

Lemma shift_out b l pos f : repr w b l -> length l <= pos ->
  length (f l pos) = length l -> (forall k, sbit (f l pos) k = false) ->
  exists b', ResetAll w b = Done b' /\ repr w b' (f l pos).
Proof.
  intros R H HL HF. unfold ResetAll. destruct (SetAll_repr w b l false R) as (b' & E & R').
  exists b'. split; [exact E|]. replace (f l pos) with (s_fill l false); [exact R'|].
  apply (list_ext false).
  - unfold s_fill. now rewrite map_length, HL.
  - intros i _. unfold sbit in HF. rewrite HF. unfold s_fill. rewrite (nth_map_full _ l i false false). now destruct (_ <? _).
Qed.

(** ** Left *)
Definition newL (o : list N) (bs r c : nat) : N :=
  if c <? bs then 0%N else
  N.lor (trunc w (N.shiftl (nth (c - bs) o 0%N) (N.of_nat r)))
        (if c =? bs then 0%N else N.shiftr (nth (c - bs - 1) o 0%N) (N.of_nat (w - r))).

Lemma newL_bits o bs r c j : small w o -> r < w -> j < w ->
  N.testbit (newL o bs r c) (N.of_nat j) = if w * c + j <? w * bs + r then false else lbit w o (w * c + j - (w * bs + r)).
Proof.
  intros HS Hr Hj. unfold newL.
  destruct (Nat.ltb_spec c bs) as [C|C].
  - rewrite N.bits_0. assert (w * (c + 1) <= w * bs) by (apply (wmul_mono w); lia).
    rewrite Nat.mul_add_distr_l in H. destruct (Nat.ltb_spec (w * c + j) (w * bs + r)); [reflexivity | lia].
  - rewrite N.lor_spec, (trunc_bits w), shiftl_bits.
    destruct (N.ltb_spec (N.of_nat j) (N.of_nat w)); [|lia]. cbn [andb].
    assert (M : w * (c - bs) = w * c - w * bs) by apply Nat.mul_sub_distr_l.
    assert (w * bs <= w * c) by (apply (wmul_mono w); lia).
    destruct (N.leb_spec (N.of_nat r) (N.of_nat j)) as [J|J]; cbn [andb].
    + destruct (Nat.ltb_spec (w * c + j) (w * bs + r)); [lia|].
      replace (w * c + j - (w * bs + r)) with (w * (c - bs) + (j - r)) by lia.
      rewrite (lbit_at w) by lia. replace (N.of_nat j - N.of_nat r)%N with (N.of_nat (j - r)) by lia.
      match goal with |- _ || ?z = _ => replace z with false; [apply orb_false_r|symmetry] end.
      destruct (c =? bs); [now rewrite N.bits_0|]. rewrite N.shiftr_spec'.
      rewrite (block_high w); [reflexivity | now apply (small_nth w) | lia].
    + cbn [orb]. destruct (Nat.eqb_spec c bs) as [->|Hne].
      * clear M H0. destruct (Nat.ltb_spec (w * bs + j) (w * bs + r)); [|exfalso; lia]. now rewrite N.bits_0.
      * assert (M1 : w * (c - bs - 1) + w = w * (c - bs)) by (apply (wmul_succ w); lia).
        pose proof (Nat.le_0_l (w * (c - bs - 1))).
        destruct (Nat.ltb_spec (w * c + j) (w * bs + r)); [lia|].
        replace (w * c + j - (w * bs + r)) with (w * (c - bs - 1) + (w + j - r)) by lia.
        rewrite (lbit_at w) by lia. rewrite N.shiftr_spec'. f_equal. lia.
Qed.

Lemma newL_small o bs r c : small w o -> (newL o bs r c < 2 ^ N.of_nat w)%N.
Proof.
  intros HS. unfold newL. destruct (c <? bs); [apply (zero_lt w)|]. apply lor_lt; [apply (trunc_lt w)|].
  destruct (c =? bs); [apply (zero_lt w)|]. apply shiftr_lt. now apply (small_nth w).
Qed.

(** The blocks after the in-place loops, before the last mask. *)
Lemma shl_finish b l pos l' : repr w b l -> pos < length l -> length l' = length (blocks b) ->
  (forall c, c < length (blocks b) -> nth c l' 0%N = newL (blocks b) (pos / w) (pos mod w) c) ->
  exists b', ResetExtraBits w (mkB l' (bitCount b)) = Done b' /\ repr w b' (s_shl l pos).
Proof.
  intros R HP HLen HN. pose proof R as (HC & HL & HS & HB). destruct (divmod_w w pos) as [P1 P2].
  apply (ResetExtraBits_repr w).
  - now rewrite s_shl_length.
  - rewrite HLen, HC. exact HL.
  - apply (Forall_of_nth _ _ 0%N). intros i Hi. rewrite HN by lia. now apply newL_small.
  - intros k Hk. rewrite HC in Hk. rewrite sbit_shl. destruct (Nat.ltb_spec k (length l)); [|lia].
    pose proof (div_lt_nblocks w k (length l) Hk) as HD. rewrite <- HL in HD.
    unfold lbit. rewrite HN by exact HD. destruct (divmod_w w k) as [K1 K2].
    rewrite newL_bits by assumption. rewrite <- K1, <- P1, HB. reflexivity.
Qed.

Lemma fill_zero (l : list N) a e : a <= e -> e <= length l ->
  exists l', foreach (range a e) (fun l i => vset l i 0%N) l = Done l' /\ length l' = length l /\
    forall c, nth c l' 0%N = if (a <=? c) && (c <? e) then 0%N else nth c l 0%N.
Proof.
  intros Hae He.
  destruct (foreach_range (fun i m => length m = length l /\
     forall c, nth c m 0%N = if (a <=? c) && (c <? i) then 0%N else nth c l 0%N)
     (fun l i => vset l i 0%N) a e l) as (l' & E & H1 & H2).
  - exact Hae.
  - split; [reflexivity|]. intros c. destruct (Nat.leb_spec a c), (Nat.ltb_spec c a); try reflexivity; lia.
  - intros i m Hi (L & H). exists (upd m i 0%N). rewrite vset_done by lia. split; [reflexivity|].
    rewrite upd_length. split; [exact L|]. intros c. rewrite nth_upd, H.
    destruct (Nat.eqb_spec c i), (Nat.ltb_spec i (length m)), (Nat.leb_spec a c), (Nat.ltb_spec c i), (Nat.ltb_spec c (i + 1));
      cbn [andb]; try reflexivity; lia.
  - exists l'. auto.
Qed.

Lemma ShiftLeft_repr b l pos : repr w b l -> exists b', ShiftLeft w b pos = Done b' /\ repr w b' (s_shl l pos).
Proof.
  intros R. pose proof R as (HC & HL & HS & HB). unfold ShiftLeft. rewrite HC.
  destruct (Nat.eqb_spec pos 0) as [->|Hp].
  { exists b. split; [reflexivity|]. replace (s_shl l 0) with l; [exact R|]. unfold s_shl. simpl. now rewrite firstn_all. }
  destruct (Nat.leb_spec (length l) pos) as [Hn|Hn].
  { apply shift_out; auto.
    - apply s_shl_length.
    - intros k. rewrite sbit_shl. destruct (Nat.ltb_spec k (length l)), (Nat.ltb_spec k pos); try reflexivity; lia. }
  set (o := blocks b) in *. set (bs := pos / w) in *. set (r := pos mod w) in *.
  destruct (divmod_w w pos) as [P1 P2]. fold bs r in P1, P2.
  assert (Hbs : bs < length o) by (unfold bs; rewrite HL; now apply (div_lt_nblocks w)).
  destruct (Nat.eqb_spec r 0) as [Hr|Hr]; cbn [negb].
  - (* whole blocks *)
    destruct (foreach_range (fun k m => length m = length o /\
       forall c, c < length o -> nth c m 0%N = if length o <=? c + k then newL o bs r c else nth c o 0%N)
       (fun l k => if k + bs <? length o then x <- vget l (length o - 1 - (k + bs)) ;; vset l (length o - 1 - k) x
                   else vset l (length o - 1 - k) 0%N) 0 (length o) o) as (l' & E & H1 & H2).
    + lia.
    + split; [reflexivity|]. intros c Hc. destruct (Nat.leb_spec (length o) (c + 0)); [lia | reflexivity].
    + intros k m Hk (L & H). destruct (Nat.ltb_spec (k + bs) (length o)) as [Q|Q].
      * rewrite (vget_done _ _ 0%N) by lia. cbn [bind]. rewrite vset_done by lia. eexists. split; [reflexivity|].
        rewrite upd_length. split; [exact L|]. intros c Hc. rewrite nth_upd, (H c) by assumption.
        destruct (Nat.ltb_spec (length o - 1 - k) (length m)); [|lia]. rewrite andb_true_r.
        destruct (Nat.eqb_spec c (length o - 1 - k)) as [Ec|Ec].
        -- destruct (Nat.leb_spec (length o) (c + (k + 1))); [|lia].
           rewrite H by lia. destruct (Nat.leb_spec (length o) (length o - 1 - (k + bs) + k)).
           ++ assert (bs = 0) by lia. lia.
           ++ unfold newL. destruct (Nat.ltb_spec c bs); [lia|].
              replace (length o - 1 - (k + bs)) with (c - bs) by lia.
              rewrite Hr. change (N.of_nat 0) with 0%N. rewrite N.shiftl_0_r, (trunc_id w) by now apply (small_nth w).
              destruct (c =? bs); [now rewrite N.lor_0_r|].
              replace (N.shiftr (nth (c - bs - 1) o 0%N) (N.of_nat (w - 0))) with 0%N; [now rewrite N.lor_0_r|].
              symmetry. apply N.bits_inj. intros j. rewrite N.bits_0, N.shiftr_spec'. apply (block_high w); [now apply (small_nth w) | lia].
        -- destruct (Nat.leb_spec (length o) (c + k)), (Nat.leb_spec (length o) (c + (k + 1))); try reflexivity; lia.
      * rewrite vset_done by lia. eexists. split; [reflexivity|].
        rewrite upd_length. split; [exact L|]. intros c Hc. rewrite nth_upd, (H c) by assumption.
        destruct (Nat.ltb_spec (length o - 1 - k) (length m)); [|lia]. rewrite andb_true_r.
        destruct (Nat.eqb_spec c (length o - 1 - k)) as [Ec|Ec].
        -- destruct (Nat.leb_spec (length o) (c + (k + 1))); [|lia].
           unfold newL. destruct (Nat.ltb_spec c bs); [reflexivity | lia].
        -- destruct (Nat.leb_spec (length o) (c + k)), (Nat.leb_spec (length o) (c + (k + 1))); try reflexivity; lia.
    + rewrite E. cbn [bind]. rewrite <- HC. apply shl_finish; auto. intros c Hc. fold o in Hc |- *. rewrite H2 by exact Hc.
      destruct (Nat.leb_spec (length o) (c + length o)); [reflexivity | lia].
  - (* general case *)
    destruct (foreach_down (fun i m => length m = length o /\
       forall c, c < length o -> nth c m 0%N = if i + bs <? c then newL o bs r c else nth c o 0%N)
       (fun l i => x <- vget l i ;; y <- vget l (i - 1) ;; x' <- shl w x r ;; y' <- shr w y (w - r) ;;
                   vset l (i + bs) (N.lor x' y')) (length o - 1 - bs) o) as (m1 & E1 & L1 & H1).
    + split; [reflexivity|]. intros c Hc. destruct (Nat.ltb_spec (length o - 1 - bs + bs) c); [lia | reflexivity].
    + intros i m Hi (L & H). rewrite !(vget_done _ _ 0%N) by lia. cbn [bind].
      rewrite (shl_done w), (shr_done w) by lia. cbn [bind]. rewrite vset_done by lia.
      eexists. split; [reflexivity|]. rewrite upd_length. split; [exact L|]. intros c Hc.
      rewrite nth_upd, (H c) by assumption. destruct (Nat.ltb_spec (i + bs) (length m)); [|lia]. rewrite andb_true_r.
      destruct (Nat.eqb_spec c (i + bs)) as [->|Ec].
      * destruct (Nat.ltb_spec (i - 1 + bs) (i + bs)); [|lia].
        rewrite !H by lia. destruct (Nat.ltb_spec (i + bs) i); [lia|]. destruct (Nat.ltb_spec (i + bs) (i - 1)); [lia|].
        unfold newL. destruct (Nat.ltb_spec (i + bs) bs); [lia|]. destruct (Nat.eqb_spec (i + bs) bs); [lia|].
        now replace (i + bs - bs) with i by lia.
      * destruct (Nat.ltb_spec (i + bs) c), (Nat.ltb_spec (i - 1 + bs) c); try reflexivity; lia.
    + rewrite E1. cbn [bind]. rewrite (vget_done _ _ 0%N) by lia. cbn [bind].
      rewrite (shl_done w) by lia. cbn [bind]. rewrite vset_done by lia. cbn [bind].
      destruct (fill_zero (upd m1 bs (trunc w (N.shiftl (nth 0 m1 0%N) (N.of_nat r)))) 0 bs) as (l' & E & L' & H').
      * lia.
      * rewrite upd_length. lia.
      * rewrite E. cbn [bind]. rewrite <- HC. apply shl_finish; auto.
        -- rewrite L', upd_length. exact L1.
        -- intros c Hc. fold o in Hc |- *. fold bs r. rewrite H', nth_upd.
           rewrite (H1 0), (H1 c) by lia. destruct (Nat.ltb_spec (0 + bs) 0); [lia|].
           destruct (Nat.ltb_spec bs (length m1)); [|lia]. rewrite andb_true_r.
           destruct (Nat.leb_spec 0 c); [|lia]. cbn [andb].
           destruct (Nat.ltb_spec c bs).
           ++ unfold newL. destruct (Nat.ltb_spec c bs); [reflexivity | lia].
           ++ destruct (Nat.eqb_spec c bs) as [->|].
              ** unfold newL. destruct (Nat.ltb_spec bs bs); [lia|]. rewrite Nat.eqb_refl, N.lor_0_r.
                 now rewrite Nat.sub_diag.
              ** destruct (Nat.ltb_spec (0 + bs) c); [reflexivity | lia].
Qed.

(** ** Right *)
Definition newR (o : list N) (bs r c : nat) : N :=
  N.lor (N.shiftr (nth (c + bs) o 0%N) (N.of_nat r)) (trunc w (N.shiftl (nth (c + bs + 1) o 0%N) (N.of_nat (w - r)))).

Lemma newR_bits o bs r c j : small w o -> r < w -> j < w ->
  N.testbit (newR o bs r c) (N.of_nat j) = lbit w o (w * c + j + (w * bs + r)).
Proof.
  intros HS Hr Hj. unfold newR. rewrite N.lor_spec, N.shiftr_spec', (trunc_bits w), shiftl_bits.
  destruct (N.ltb_spec (N.of_nat j) (N.of_nat w)); [|lia]. cbn [andb].
  assert (M : w * (c + bs) = w * c + w * bs) by apply Nat.mul_add_distr_l.
  assert (M1 : w * (c + bs + 1) = w * c + w * bs + w) by lia.
  destruct (Nat.lt_ge_cases (j + r) w) as [J|J].
  - replace (w * c + j + (w * bs + r)) with (w * (c + bs) + (j + r)) by lia. rewrite (lbit_at w) by lia.
    destruct (N.leb_spec (N.of_nat (w - r)) (N.of_nat j)); [lia|]. cbn [andb]. rewrite orb_false_r. f_equal. lia.
  - replace (w * c + j + (w * bs + r)) with (w * (c + bs + 1) + (j + r - w)) by lia. rewrite (lbit_at w) by lia.
    destruct (N.leb_spec (N.of_nat (w - r)) (N.of_nat j)); [|lia]. cbn [andb].
    rewrite (block_high w); [|now apply (small_nth w)|lia]. cbn [orb]. f_equal. lia.
Qed.

Lemma newR_small o bs r c : small w o -> (newR o bs r c < 2 ^ N.of_nat w)%N.
Proof.
  intros HS. unfold newR. apply lor_lt; [|apply (trunc_lt w)]. apply shiftr_lt. now apply (small_nth w).
Qed.

Lemma shr_finish b l pos l' : repr w b l -> pos < length l -> length l' = length (blocks b) ->
  (forall c, c < length (blocks b) -> nth c l' 0%N = newR (blocks b) (pos / w) (pos mod w) c) ->
  exists b', ResetExtraBits w (mkB l' (bitCount b)) = Done b' /\ repr w b' (s_shr l pos).
Proof.
  intros R HP HLen HN. pose proof R as (HC & HL & HS & HB). destruct (divmod_w w pos) as [P1 P2].
  apply (ResetExtraBits_repr w).
  - now rewrite s_shr_length.
  - rewrite HLen, HC. exact HL.
  - apply (Forall_of_nth _ _ 0%N). intros i Hi. rewrite HN by lia. now apply newR_small.
  - intros k Hk. rewrite HC in Hk. rewrite sbit_shr.
    pose proof (div_lt_nblocks w k (length l) Hk) as HD. rewrite <- HL in HD.
    unfold lbit. rewrite HN by exact HD. destruct (divmod_w w k) as [K1 K2].
    rewrite newR_bits by assumption. rewrite <- K1, <- P1, HB. reflexivity.
Qed.

Lemma newR_out o bs r c : small w o -> length o <= c + bs -> newR o bs r c = 0%N.
Proof.
  intros HS H. unfold newR. rewrite !nth_overflow by lia. rewrite N.shiftr_0_l, N.shiftl_0_l, N.lor_0_l.
  apply (trunc_id w). apply (zero_lt w).
Qed.

Lemma newR_whole o bs c : small w o -> newR o bs 0 c = nth (c + bs) o 0%N.
Proof.
  intros HS. unfold newR. change (N.of_nat 0) with 0%N. rewrite N.shiftr_0_r.
  replace (trunc w _) with 0%N; [apply N.lor_0_r|]. symmetry. apply N.bits_inj. intros j.
  rewrite N.bits_0, (trunc_bits w), shiftl_bits. destruct (N.ltb_spec j (N.of_nat w)); [|reflexivity].
  destruct (N.leb_spec (N.of_nat (w - 0)) j); [lia | reflexivity].
Qed.

Lemma ShiftRight_repr b l pos : repr w b l -> exists b', ShiftRight w b pos = Done b' /\ repr w b' (s_shr l pos).
Proof.
  intros R. pose proof R as (HC & HL & HS & HB). unfold ShiftRight. rewrite HC.
  destruct (Nat.eqb_spec pos 0) as [->|Hp].
  { exists b. split; [reflexivity|]. replace (s_shr l 0) with l; [exact R|]. unfold s_shr. simpl. now rewrite app_nil_r. }
  destruct (Nat.leb_spec (length l) pos) as [Hn|Hn].
  { apply shift_out; auto.
    - apply s_shr_length.
    - intros k. rewrite sbit_shr. apply sbit_high. lia. }
  set (o := blocks b) in *. set (bs := pos / w) in *. set (r := pos mod w) in *.
  destruct (divmod_w w pos) as [P1 P2]. fold bs r in P1, P2.
  assert (Hbs : bs < length o) by (unfold bs; rewrite HL; now apply (div_lt_nblocks w)).
  destruct (Nat.eqb_spec r 0) as [Hr|Hr]; cbn [negb].
  - destruct (foreach_range (fun k m => length m = length o /\
       forall c, c < length o -> nth c m 0%N = if c <? k then newR o bs r c else nth c o 0%N)
       (fun l k => if k + bs <? length o then x <- vget l (k + bs) ;; vset l k x
                   else vset l k 0%N) 0 (length o) o) as (l' & E & H1 & H2).
    + lia.
    + split; [reflexivity|]. intros c Hc. destruct (Nat.ltb_spec c 0); [lia | reflexivity].
    + intros k m Hk (L & H). destruct (Nat.ltb_spec (k + bs) (length o)) as [Q|Q].
      * rewrite (vget_done _ _ 0%N) by lia. cbn [bind]. rewrite vset_done by lia. eexists. split; [reflexivity|].
        rewrite upd_length. split; [exact L|]. intros c Hc. rewrite nth_upd, (H c) by assumption.
        destruct (Nat.ltb_spec k (length m)); [|lia]. rewrite andb_true_r.
        destruct (Nat.eqb_spec c k) as [->|Ec].
        -- destruct (Nat.ltb_spec k (k + 1)); [|lia]. rewrite H by lia.
           destruct (Nat.ltb_spec (k + bs) k); [lia|]. rewrite Hr. symmetry. now apply newR_whole.
        -- destruct (Nat.ltb_spec c k), (Nat.ltb_spec c (k + 1)); try reflexivity; lia.
      * rewrite vset_done by lia. eexists. split; [reflexivity|].
        rewrite upd_length. split; [exact L|]. intros c Hc. rewrite nth_upd, (H c) by assumption.
        destruct (Nat.ltb_spec k (length m)); [|lia]. rewrite andb_true_r.
        destruct (Nat.eqb_spec c k) as [->|Ec].
        -- destruct (Nat.ltb_spec k (k + 1)); [|lia]. symmetry. now apply newR_out.
        -- destruct (Nat.ltb_spec c k), (Nat.ltb_spec c (k + 1)); try reflexivity; lia.
    + rewrite E. cbn [bind]. rewrite <- HC. apply shr_finish; auto. intros c Hc. fold o in Hc |- *. rewrite H2 by exact Hc.
      destruct (Nat.ltb_spec c (length o)); [reflexivity | lia].
  - destruct (foreach_range (fun i m => length m = length o /\
       forall c, c < length o -> nth c m 0%N = if c + bs <? i then newR o bs r c else nth c o 0%N)
       (fun l i => x <- vget l i ;; y <- vget l (i + 1) ;; x' <- shr w x r ;; y' <- shl w y (w - r) ;;
                   vset l (i - bs) (N.lor x' y')) bs (length o - 1) o) as (m1 & E1 & L1 & H1).
    + lia.
    + split; [reflexivity|]. intros c Hc. destruct (Nat.ltb_spec (c + bs) bs); [lia | reflexivity].
    + intros i m Hi (L & H). rewrite !(vget_done _ _ 0%N) by lia. cbn [bind].
      rewrite (shl_done w), (shr_done w) by lia. cbn [bind]. rewrite vset_done by lia.
      eexists. split; [reflexivity|]. rewrite upd_length. split; [exact L|]. intros c Hc.
      rewrite nth_upd, (H c) by assumption. destruct (Nat.ltb_spec (i - bs) (length m)); [|lia]. rewrite andb_true_r.
      destruct (Nat.eqb_spec c (i - bs)) as [->|Ec].
      * destruct (Nat.ltb_spec (i - bs + bs) (i + 1)); [|lia].
        rewrite !H by lia. destruct (Nat.ltb_spec (i + bs) i); [lia|]. destruct (Nat.ltb_spec (i + 1 + bs) i); [lia|].
        unfold newR. now replace (i - bs + bs) with i by lia.
      * destruct (Nat.ltb_spec (c + bs) i), (Nat.ltb_spec (c + bs) (i + 1)); try reflexivity; lia.
    + rewrite E1. cbn [bind]. rewrite (vget_done _ _ 0%N) by lia. cbn [bind].
      rewrite (shr_done w) by lia. cbn [bind]. rewrite vset_done by lia. cbn [bind].
      destruct (fill_zero (upd m1 (length o - 1 - bs) (N.shiftr (nth (length o - 1) m1 0%N) (N.of_nat r))) (length o - bs) (length o)) as (l' & E & L' & H').
      * lia.
      * rewrite upd_length. lia.
      * rewrite E. cbn [bind]. rewrite <- HC. apply shr_finish; auto.
        -- rewrite L', upd_length. exact L1.
        -- intros c Hc. fold o in Hc |- *. fold bs r. rewrite H', nth_upd.
           rewrite (H1 (length o - 1)), (H1 c) by lia. destruct (Nat.ltb_spec (length o - 1 + bs) (length o - 1)); [lia|].
           destruct (Nat.ltb_spec (length o - 1 - bs) (length m1)); [|lia]. rewrite andb_true_r.
           destruct (Nat.ltb_spec c (length o)); [|lia]. rewrite andb_true_r.
           destruct (Nat.leb_spec (length o - bs) c).
           ++ symmetry. apply newR_out; [exact HS | lia].
           ++ destruct (Nat.eqb_spec c (length o - 1 - bs)) as [->|].
              ** unfold newR. replace (length o - 1 - bs + bs) with (length o - 1) by lia.
                 rewrite (nth_overflow o 0%N (n := length o - 1 + 1)) by lia.
                 rewrite N.shiftl_0_l, (trunc_id w) by apply (zero_lt w). now rewrite N.lor_0_r.
              ** destruct (Nat.ltb_spec (c + bs) (length o - 1)); [reflexivity | lia].
Qed.

End S.
