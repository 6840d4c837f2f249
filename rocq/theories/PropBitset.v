(** Properties C01-C18 and C75: Nz::Bitset.
    [repr w b l] (BitsetProofs.v) is the abstraction relation: the bitset [b] with blocks of [w] bits denotes the
    boolean sequence [l].  C01 and C02 show that every history of calls ends in such a state; the other theorems
    start from any such state. *)
From Verif Require Import Base CInt MathModel BitsetModel BitsetSpec BitsetBits BitsetProofs BitsetFind BitsetShift
  BitsetLogic BitsetInt BitsetWrite BitsetHistory.
Open Scope nat_scope.

(** What a client can observe of one bitset. *)
Definition observes (w : nat) (b : bitset) (l : list bool) : Prop :=
  GetSize b = length l /\
  forall i, Test w b i = if i <? length l then Done (nth i l false) else Fault FAssert.

Lemma repr_observes w `{width w} b l : repr w b l -> observes w b l.
Proof. intros R. split; [apply R|]. intros i. apply (Test_repr w b l i R). Qed.

(** *** C01 *)
Theorem C01_history : forall w, width w -> forall ops, wf_run w (fun _ => []) ops ->
  match spec_run w (fun _ => []) ops with
  | Some s => exists st, run w (fun _ => empty) ops = Done st /\ forall r, observes w (st r) (s r)
  | None => run w (fun _ => empty) ops = Fault FAssert
  end.
Proof.
  intros w Hw ops WF. pose proof (run_repr w ops _ _ (empty_all w) WF) as H.
  destruct (spec_run w (fun _ => []) ops) as [s|]; [|exact H].
  destruct H as (st & E & R). exists st. split; [exact E|]. intros r. exact (repr_observes w _ _ (R r)).
Qed.
Print Assumptions C01_history.

(** One write changes one bit: the point version, on any state. *)
Theorem C01_set_one_bit : forall w, width w -> forall b l i v, repr w b l -> i < length l ->
  exists b', Set_ w b i v = Done b' /\ GetSize b' = length l /\
    (forall j, j < length l -> Test w b' j = Done (if j =? i then v else nth j l false)).
Proof.
  intros w Hw b l i v R Hi. destruct (Set_done w b l i v R Hi) as (b' & E & R'). exists b'. split; [exact E|].
  destruct R' as (HC & R''). pose proof HC as HC'. unfold s_set in HC. rewrite upd_length in HC. split; [exact HC|].
  intros j Hj. assert (RR : repr w b' (s_set l i v)) by (split; assumption).
  rewrite (Test_repr w b' _ j RR). unfold s_set. rewrite upd_length. destruct (Nat.ltb_spec j (length l)); [|lia].
  unfold sbit. rewrite nth_upd. destruct (Nat.ltb_spec i (length l)); [|lia]. now rewrite andb_true_r.
Qed.
Print Assumptions C01_set_one_bit.

Definition demo_ops : list op :=
  [OMake 0 11 false; OSet 0 3 true; OSet 0 10 true; OFlip 0; OResize 0 13 true; OCopy 1 0; OShl 1 2; OShr 0 9;
   OAnd 2 0 1; OXor 1 1 1; OReverse 0; OUSet 3 20 true; OAppend 0 8 5 3].
Example C01_nonvacuous : exists s, spec_run 8 (fun _ => []) demo_ops = Some s /\ wf_run 8 (fun _ => []) demo_ops /\
  s 0 = [false;false;false;false;false;false;false;false;false;true;true;false;true;true;false;true] /\ length (s 3) = 21.
Proof. eexists. split; [reflexivity|]. split; [cbn; repeat split; try lia; left; lia|]. vm_compute. auto. Qed.
Example C01_nonvacuous_blocks : exists s,
  let ops := [OMake 0 11 false; OSetBlock 0 1 255; OBit 0 2 (BSet true); OBit 0 8 BFlip; OUReset 0 2; OWrite 0 [165]%N 0 4 4] in
  spec_run 8 (fun _ => []) ops = Some s /\ wf_run 8 (fun _ => []) ops /\
  s 0 = [false;false;false;false;false;false;false;false;false;true;true] ++ [false;true;false;true].
Proof.
  eexists. cbn zeta. split; [reflexivity|]. split; [|vm_compute; reflexivity]. cbn [wf_run wf_op spec_step]. repeat split; try (vm_compute; lia).
  repeat constructor.
Qed.
Example C01_nonvacuous_proxies : exists s,
  let ops := [OMake 0 3 false; OBit 0 2 (BSet true); OBit 0 1 (BXor true); OBit 0 2 (BMinus true); OUReset 0 99] in
  spec_run 8 (fun _ => []) ops = Some s /\ wf_run 8 (fun _ => []) ops /\ s 0 = [false;true;false].
Proof. eexists. cbn zeta. split; [reflexivity|]. split; [|vm_compute; reflexivity]. cbn [wf_run wf_op spec_step]. repeat split; vm_compute; lia. Qed.
Example C01_assertion_reachable : run 8 (fun _ => empty) [OMake 0 3 true; OSet 0 3 true] = Fault FAssert.
Proof. reflexivity. Qed.

(** Blocks: SetBlock replaces the bits of one block that exist, GetBlock reads them. *)
Theorem C01_blocks : forall w, width w -> forall b l i x, repr w b l ->
  (w * i < length l -> exists b', SetBlock w b i x = Done b' /\ GetSize b' = length l /\
     forall j, j < length l -> Test w b' j = Done (if j / w =? i then N.testbit x (N.of_nat (j mod w)) else nth j l false)) /\
  (length l <= w * i -> SetBlock w b i x = Fault FAssert /\ GetBlock b i = Fault FAssert) /\
  (w * i < length l -> exists y, GetBlock b i = Done y /\ forall j, N.testbit y (N.of_nat j) = if j <? w then nth (w * i + j) l false else false).
Proof.
  intros w Hw b l i x R. pose proof (set_block_repr w b l i x R) as S. pose proof (width_pos w Hw) as Wp.
  pose proof R as (HC & HL & HS & HB). destruct (nblocks_spec w (length l)) as [N1 N2]. split; [|split].
  - intros Hi. destruct (Nat.ltb_spec (w * i) (length l)); [|lia]. destruct S as (b' & E & R'). exists b'. split; [exact E|].
    split; [destruct R' as (C & _); unfold GetSize; rewrite C, map_length, seq_length; reflexivity|].
    intros j Hj. rewrite (Test_repr w b' _ j R'), map_length, seq_length. destruct (Nat.ltb_spec j (length l)); [|lia].
    rewrite sbit_map_seq. destruct (Nat.ltb_spec j (length l)); [reflexivity|lia].
  - intros Hi. destruct (Nat.ltb_spec (w * i) (length l)); [lia|]. split; [exact S|].
    unfold GetBlock. rewrite HL. destruct (Nat.ltb_spec i (nblocks w (length l))); [exfalso; nia|reflexivity].
  - intros Hi. assert (I : i < length (blocks b)) by (rewrite HL; nia). exists (nth i (blocks b) 0%N). split; [now apply (GetBlock_done w)|].
    intros j. destruct (Nat.ltb_spec j w) as [J|J].
    + specialize (HB (w * i + j)). unfold lbit, sbit in HB. rewrite Nat.mul_comm, Nat.add_comm in HB. rewrite Nat.mul_comm, Nat.add_comm.
      rewrite Nat.div_add, Nat.mod_add, (Nat.div_small j), (Nat.mod_small j) in HB by lia. exact HB.
    + apply (proj1 (lt_pow2_bits (nth i (blocks b) 0%N) (N.of_nat w)) (small_nth w _ _ HS)). lia.
Qed.
Print Assumptions C01_blocks.

(** *** C02 *)
Theorem C02_no_stale_bits : forall w, width w -> forall ops s, wf_run w (fun _ => []) ops ->
  spec_run w (fun _ => []) ops = Some s ->
  exists st, run w (fun _ => empty) ops = Done st /\ forall r,
    length (blocks (st r)) = (GetSize (st r) + w - 1) / w /\
    (forall k, GetSize (st r) <= k -> N.testbit (nth (k / w) (blocks (st r)) 0%N) (N.of_nat (k mod w)) = false) /\
    (forall x, In x (blocks (st r)) -> (x < 2 ^ N.of_nat w)%N).
Proof.
  intros w Hw ops s WF E. pose proof (run_repr w ops _ _ (empty_all w) WF) as H. rewrite E in H.
  destruct H as (st & E' & R). exists st. split; [exact E'|]. intros r. destruct (R r) as (HC & HL & HS & HB).
  unfold GetSize. rewrite HC. split; [exact HL|]. split.
  - intros k Hk. change (lbit w (blocks (st r)) k = false). rewrite HB. now apply sbit_high.
  - intros x Hx. unfold small in HS. rewrite Forall_forall in HS. now apply HS.
Qed.
Print Assumptions C02_no_stale_bits.

(** *** C03 *)
Theorem C03_resize : forall w, width w -> forall b l n v, repr w b l ->
  exists b', Resize w b n v = Done b' /\ repr w b' (firstn n l ++ repeat v (n - length l)) /\ GetSize b' = n /\
    forall i, i < n -> Test w b' i = Done (if i <? length l then nth i l false else v).
Proof.
  intros w Hw b l n v R. destruct (Resize_repr w b l n v R) as (b' & E & R'). exists b'. split; [exact E|].
  split; [exact R'|]. split; [rewrite <- (s_resize_length l n v); apply R'|].
  intros i Hi. rewrite (Test_repr w b' _ i R'), s_resize_length. destruct (Nat.ltb_spec i n); [|lia].
  rewrite sbit_resize. destruct (Nat.ltb_spec i n); [reflexivity | lia].
Qed.
Print Assumptions C03_resize.

Theorem C03_shrink_then_grow : forall w, width w -> forall b l m n, repr w b l -> m <= length l ->
  exists b1 b2, Resize w b m true = Done b1 /\ Resize w b1 n false = Done b2 /\
    forall i, i < n -> Test w b2 i = Done (if i <? m then nth i l false else false).
Proof.
  intros w Hw b l m n R Hm. destruct (C03_resize w Hw b l m true R) as (b1 & E1 & R1 & S1 & _).
  destruct (C03_resize w Hw b1 _ n false R1) as (b2 & E2 & _ & _ & T2). exists b1, b2.
  split; [exact E1|]. split; [exact E2|]. intros i Hi. rewrite (T2 i Hi).
  rewrite app_length, firstn_length, repeat_length, nth_app_full, firstn_length, nth_firstn, nth_repeat_full.
  replace (Nat.min m (length l)) with m by lia. replace (m - length l) with 0 by lia. rewrite Nat.add_0_r.
  destruct (i <? m); reflexivity.
Qed.
Print Assumptions C03_shrink_then_grow.
Example C03_nonvacuous : exists b, make 16 20 true = Done b /\ Resize 16 b 35 true = Done (mkB [65535;65535;7]%N 35).
Proof. eexists. split; reflexivity. Qed.

(** *** C04 *)
Theorem C04_shift_left : forall w, width w -> forall b l k, repr w b l ->
  exists b', ShiftLeft w b k = Done b' /\ repr w b' (s_shl l k) /\ GetSize b' = length l /\
    forall i, i < length l -> Test w b' i = Done (if i <? k then false else nth (i - k) l false).
Proof.
  intros w Hw b l k R. destruct (ShiftLeft_repr w b l k R) as (b' & E & R'). exists b'. split; [exact E|].
  split; [exact R'|]. split; [rewrite <- (s_shl_length l k); apply R'|].
  intros i Hi. rewrite (Test_repr w b' _ i R'), s_shl_length, sbit_shl. destruct (Nat.ltb_spec i (length l)); [reflexivity | lia].
Qed.
Print Assumptions C04_shift_left.

Theorem C04_shift_right : forall w, width w -> forall b l k, repr w b l ->
  exists b', ShiftRight w b k = Done b' /\ repr w b' (s_shr l k) /\ GetSize b' = length l /\
    forall i, i < length l -> Test w b' i = Done (nth (i + k) l false).
Proof.
  intros w Hw b l k R. destruct (ShiftRight_repr w b l k R) as (b' & E & R'). exists b'. split; [exact E|].
  split; [exact R'|]. split; [rewrite <- (s_shr_length l k); apply R'|].
  intros i Hi. rewrite (Test_repr w b' _ i R'), s_shr_length, sbit_shr. destruct (Nat.ltb_spec i (length l)); [reflexivity | lia].
Qed.
Print Assumptions C04_shift_right.
Example C04_nonvacuous : ShiftLeft 8 (mkB [129; 3]%N 10) 9 = Done (mkB [0; 2]%N 10) /\
  ShiftRight 8 (mkB [129; 3]%N 10) 9 = Done (mkB [1; 0]%N 10) /\ ShiftLeft 8 (mkB [129; 3]%N 10) 8 = Done (mkB [0; 1]%N 10).
Proof. vm_compute. auto. Qed.

(** *** C05: [d], [a], [b] may be equal in any combination *)
Theorem C05_logic : forall w, width w -> forall st d a b la lb, repr w (st a) la -> repr w (st b) lb ->
  let pointwise f (r : outcome (nat -> bitset)) := exists st', r = Done st' /\
     (exists l, repr w (st' d) l /\ length l = Nat.max (length la) (length lb) /\
        forall i, i < length l -> nth i l false = f (nth i la false) (nth i lb false)) /\
     (forall r', r' <> d -> st' r' = st r') in
  pointwise andb (PerformsAND w st d a b) /\ pointwise orb (PerformsOR w st d a b) /\ pointwise xorb (PerformsXOR w st d a b).
Proof.
  intros w Hw st d a b la lb Ra Rb pointwise.
  assert (P : forall f r, f false false = false ->
     (exists st', r = Done st' /\ repr w (st' d) (s_zip f la lb) /\ (forall q, q <> d -> st' q = st q)) -> pointwise f r).
  { intros f r Hf (st' & E & R & O). exists st'. split; [exact E|]. split; [|exact O].
    exists (s_zip f la lb). split; [exact R|]. split; [apply s_zip_length|]. intros i _. now apply (sbit_zip f). }
  repeat split; (apply P; [reflexivity|]).
  - now apply (PerformsAND_repr w).
  - now apply (PerformsOR_repr w).
  - now apply (PerformsXOR_repr w).
Qed.
Print Assumptions C05_logic.

Theorem C05_not : forall w, width w -> forall st d a la, repr w (st a) la ->
  exists st', PerformsNOT w st d a = Done st' /\ repr w (st' d) (map negb la) /\ (forall r, r <> d -> st' r = st r).
Proof. intros w Hw st d a la R. exact (PerformsNOT_repr w st d a la R). Qed.
Print Assumptions C05_not.
Example C05_nonvacuous : let st := fun r => if r =? 0 then mkB [170; 1]%N 9 else mkB [15]%N 5 in
  match PerformsOR 8 st 0 1 0 with Done st' => st' 0 = mkB [175; 1]%N 9 | _ => False end /\
  match PerformsAND 8 st 1 1 0 with Done st' => st' 1 = mkB [10; 0]%N 9 | _ => False end.
Proof. vm_compute. auto. Qed.

(** *** C06 *)
Theorem C06_find_first : forall w, width w -> forall b l, repr w b l ->
  match FindFirst w b with
  | Some p => p < length l /\ nth p l false = true /\ (forall j, j < p -> nth j l false = false)
  | None => forall j, nth j l false = false
  end.
Proof.
  intros w Hw b l R. rewrite (FindFirst_repr w b l R). pose proof (s_find_spec w l 0) as S.
  destruct (s_find l 0) as [p|].
  - destruct S as (A & B & C). split; [lia|]. split; [exact B|]. intros j Hj. apply C. lia.
  - intros j. apply S. lia.
Qed.
Print Assumptions C06_find_first.

Theorem C06_find_next : forall w, width w -> forall b l i, repr w b l ->
  if i <? length l then
    match FindNext w b i with
    | Done (Some p) => i < p < length l /\ nth p l false = true /\ (forall j, i < j < p -> nth j l false = false)
    | Done None => forall j, i < j -> nth j l false = false
    | Fault _ => False
    end
  else FindNext w b i = Fault FAssert.
Proof.
  intros w Hw b l i R. rewrite (FindNext_repr w b l i R). destruct (i <? length l); [|reflexivity].
  pose proof (s_find_spec w l (i + 1)) as S. destruct (s_find l (i + 1)) as [p|].
  - destruct S as (A & B & C). split; [lia|]. split; [exact B|]. intros j Hj. apply C. lia.
  - intros j Hj. apply S. lia.
Qed.
Print Assumptions C06_find_next.

(** The loop terminates and visits the true positions in increasing order. *)
Theorem C06_iteration : forall w, width w -> forall b l, repr w b l ->
  IterBits w b = Done (filter (fun i => nth i l false) (seq 0 (length l))).
Proof. intros w Hw b l R. exact (IterBits_repr w b l R). Qed.
Print Assumptions C06_iteration.
Example C06_nonvacuous : IterBits 8 (mkB [130; 0; 1]%N 17) = Done [1; 7; 16].
Proof. reflexivity. Qed.

(** *** C07 *)
Theorem C07_queries : forall w, width w -> forall b l, repr w b l ->
  Count w b = count_occ Bool.bool_dec l true /\
  (exists r, TestAll w b = Done r /\ (r = true <-> forall i, i < length l -> nth i l false = true)) /\
  (TestAny b = true <-> exists i, nth i l false = true) /\
  (TestNone b = true <-> forall i, nth i l false = false).
Proof.
  intros w Hw b l R. split; [exact (Count_repr w b l R)|]. split.
  { eexists. split; [exact (TestAll_repr w b l R)|]. rewrite forallb_forall. split.
    - intros H i Hi. apply H. now apply nth_In.
    - intros H x Hx. destruct (In_nth _ _ false Hx) as (i & Hi & E). rewrite <- E. auto. }
  assert (A : TestAny b = true <-> exists i, nth i l false = true).
  { rewrite (TestAny_repr w b l R), existsb_exists. split.
    - intros (x & Hx & E). subst x. destruct (In_nth _ _ false Hx) as (i & Hi & E). eauto.
    - intros (i & E). exists true. split; [|reflexivity]. rewrite <- E. apply nth_In.
      apply Nat.nle_gt. intros C. rewrite nth_overflow in E by assumption. discriminate. }
  split; [exact A|]. unfold TestNone. rewrite negb_true_iff, <- not_true_iff_false, A. split.
  - intros H i. apply not_true_iff_false. intros C. apply H. eauto.
  - intros H (i & E). rewrite H in E. discriminate.
Qed.
Print Assumptions C07_queries.

Theorem C07_intersects : forall w, width w -> forall a b la lb, repr w a la -> repr w b lb ->
  exists r, Intersects a b = Done r /\ (r = true <-> exists i, nth i la false = true /\ nth i lb false = true).
Proof.
  intros w Hw a b la lb Ra Rb. eexists. split; [exact (Intersects_repr w a b la lb Ra Rb)|].
  rewrite existsb_exists. split.
  - intros (i & _ & H). apply andb_prop in H. eauto.
  - intros (i & H1 & H2). exists i. split; [|unfold sbit; now rewrite H1, H2]. apply in_seq. split; [lia|].
    apply Nat.nle_gt. intros C. rewrite nth_overflow in H1 by lia. discriminate.
Qed.
Print Assumptions C07_intersects.
Example C07_nonvacuous : Count 8 (mkB [130; 0; 1]%N 17) = 3 /\ TestAll 8 (mkB [255; 1]%N 9) = Done true /\
  TestAll 8 (mkB [255; 0]%N 9) = Done false /\ Intersects (mkB [1; 2]%N 16) (mkB [2; 2; 1]%N 17) = Done true.
Proof. vm_compute. auto. Qed.

(** *** C08 *)
Theorem C08_reverse : forall w, width w -> forall b l, repr w b l ->
  exists b', Reverse w b = Done b' /\ repr w b' (rev l) /\
    (forall i, i < length l -> Test w b' i = Done (nth (length l - 1 - i) l false)) /\ Reverse w b' = Done b.
Proof.
  intros w Hw b l R. destruct (Reverse_repr w b l R) as (b' & E & R'). exists b'. split; [exact E|]. split; [exact R'|]. split.
  - intros i Hi. rewrite (Test_repr w b' _ i R'), rev_length. destruct (Nat.ltb_spec i (length l)); [|lia].
    unfold sbit. rewrite rev_nth by assumption. do 2 f_equal. lia.
  - destruct (Reverse_repr w b' (rev l) R') as (b2 & E2 & R2). rewrite rev_involutive in R2. rewrite E2. f_equal.
    now apply (repr_inj w) with l.
Qed.
Print Assumptions C08_reverse.
Example C08_nonvacuous : Reverse 8 (mkB [7; 0]%N 10) = Done (mkB [128; 3]%N 10).
Proof. reflexivity. Qed.

(** *** C09: '0' = 48, '1' = 49; the leftmost character is the highest bit *)
Theorem C09_string_to_bits_and_back : forall w, width w -> forall s, Forall (fun c => c = 48%N \/ c = 49%N) s ->
  exists b, of_string w s = Done b /\ GetSize b = length s /\ ToString w b = Done s /\
    forall i, i < length s -> Test w b i = Done (nth (length s - 1 - i) s 0 =? 49)%N.
Proof.
  intros w Hw s HS. destruct (of_string_repr w s HS) as (b & E & R). exists b. split; [exact E|].
  assert (L : length (rev (map (fun c => (c =? 49)%N) s)) = length s) by now rewrite rev_length, map_length.
  split; [unfold GetSize; rewrite <- L; apply R|]. split.
  - rewrite (ToString_repr w b _ R). f_equal. unfold s_string. rewrite rev_involutive, map_map.
    clear -HS. induction HS as [|c s [->| ->] HS IH]; cbn [map]; [reflexivity | |]; now rewrite IH.
  - intros i Hi. rewrite (Test_repr w b _ i R), L. destruct (Nat.ltb_spec i (length s)); [|lia].
    unfold sbit. rewrite rev_nth by (now rewrite map_length). rewrite map_length.
    rewrite (nth_map_full _ s _ false 0%N). destruct (Nat.ltb_spec (length s - S i) (length s)); [|lia].
    do 3 f_equal. lia.
Qed.
Print Assumptions C09_string_to_bits_and_back.

Theorem C09_bits_to_string_and_back : forall w, width w -> forall b l, repr w b l ->
  exists s, ToString w b = Done s /\ of_string w s = Done b.
Proof.
  intros w Hw b l R. exists (s_string l). split; [exact (ToString_repr w b l R)|].
  assert (F : Forall (fun c => c = 48%N \/ c = 49%N) (s_string l)).
  { unfold s_string. apply Forall_map. apply Forall_forall. intros [] _; auto. }
  destruct (of_string_repr w _ F) as (b' & E & R'). rewrite E. f_equal. apply (repr_inj w) with l; [|exact R].
  replace l with (rev (map (fun c => (c =? 49)%N) (s_string l))); [exact R'|].
  unfold s_string. rewrite map_map, <- map_rev, rev_involutive. clear. induction l as [|[] l IH]; cbn [map]; [reflexivity | |]; now rewrite IH.
Qed.
Print Assumptions C09_bits_to_string_and_back.

Theorem C09_bad_character : forall w, width w -> forall s, ~ Forall (fun c => c = 48%N \/ c = 49%N) s ->
  of_string w s = Fault FAssert.
Proof. intros w Hw s H. exact (of_string_bad w s H). Qed.
Print Assumptions C09_bad_character.
Example C09_nonvacuous : of_string 8 [49; 48; 48; 49; 48; 48; 48; 48; 49]%N = Done (mkB [33; 1]%N 9).
Proof. reflexivity. Qed.

(** *** C10 *)
Theorem C10_integer_roundtrip : forall w, width w -> forall tw v, 0 < tw -> (v < 2 ^ N.of_nat tw)%N ->
  exists b, of_int w tw (Z.of_N v) = Done b /\ To w tw b = Done v /\ GetSize b <= tw /\
    forall i, i < GetSize b -> Test w b i = Done (N.testbit v (N.of_nat i)).
Proof.
  intros w Hw tw v H0 Hv. destruct (of_int_roundtrip w tw v H0 Hv) as (b & l & E & R & L & B & T).
  exists b. split; [exact E|]. split; [exact T|]. unfold GetSize. destruct R as (HC & R'). rewrite HC. split; [exact L|].
  intros i Hi. rewrite (Test_repr w b l i (conj HC R')). destruct (Nat.ltb_spec i (length l)); [|lia]. now rewrite B.
Qed.
Print Assumptions C10_integer_roundtrip.

(** To is the weighted sum of the bits and asserts exactly when the bitset is longer than the type. *)
Theorem C10_to_value : forall w, width w -> forall b l tw, repr w b l ->
  To w tw b = if length l <=? tw
    then Done (fold_right N.add 0 (map (fun i => if nth i l false then 2 ^ N.of_nat i else 0) (seq 0 (length l))))%N
    else Fault FAssert.
Proof.
  intros w Hw b l tw R. rewrite (To_repr w b l tw R). destruct (length l <=? tw); [|reflexivity]. f_equal.
  clear. induction l as [|x l IH]; [reflexivity|]. cbn [s_value length seq map fold_right nth].
  rewrite <- seq_shift, map_map. f_equal.
  rewrite IH. generalize (seq 0 (length l)) as q. induction q as [|i q IQ]; [reflexivity|]. cbn [map fold_right].
  rewrite N.mul_add_distr_l, IQ. f_equal. rewrite Nat2N.inj_succ, N.pow_succ_r'. destruct (nth i l false); lia.
Qed.
Print Assumptions C10_to_value.

(** Constructing from a negative signed value of the block width or less dirties the bits past the size
    (and a wider type gives a size that depends on the value). *)
Theorem C10_negative_refuted : exists b, of_int 32 8 (-1) = Done b /\ GetSize b = 8 /\ Count 32 b = 32 /\ To 32 8 b = Done 255%N.
Proof. eexists. split; [reflexivity|]. vm_compute. auto. Qed.
Theorem C10_size_depends_on_width_refuted : 
  (exists b, of_int 8 32 1 = Done b /\ GetSize b = 1) /\ (exists b, of_int 32 32 1 = Done b /\ GetSize b = 32).
Proof. split; eexists; split; reflexivity. Qed.
Print Assumptions C10_negative_refuted.
Print Assumptions C10_size_depends_on_width_refuted.
Example C10_nonvacuous : of_int 8 32 4660 = Done (mkB [52; 18]%N 13) /\ To 8 32 (mkB [52; 18]%N 13) = Done 4660%N.
Proof. vm_compute. auto. Qed.

(** *** C11 *)
(** Room left in the last block. *)
Definition room (w len : nat) : nat := (w - len mod w) mod w.

Lemma room_free w `{width w} len : room w len = free_bits w len.
Proof.
  pose proof (width_pos w H). unfold room. destruct (free_bits_spec w len) as [(A & B)|(A & B)]; rewrite B.
  - rewrite A, Nat.sub_0_r, Nat.mod_same by lia. reflexivity.
  - apply Nat.mod_small. lia.
Qed.

(** Correct when the argument carries no bit above [n] inside the current block (in particular when v < 2^n) and the
    call does not complete a pushed block of a type that is not promoted. *)
Theorem C11_append_partial : forall w, width w -> forall tw b l v n, 0 < tw -> repr w b l -> (v < 2 ^ N.of_nat tw)%N ->
  (forall j, n <= j < room w (length l) -> N.testbit v (N.of_nat j) = false) ->
  (w < 32 \/ n <= room w (length l) \/ (length l + n) mod w <> 0) ->
  exists b', AppendBits w tw b v n = Done b' /\ repr w b' (l ++ map (fun i => N.testbit v (N.of_nat i)) (seq 0 n)).
Proof.
  intros w Hw tw b l v n H0 R Hv NL C. pose proof (width_pos w Hw). rewrite (room_free w) in *.
  apply (AppendBits_repr w); auto. destruct C as [C|[C|C]]; auto.
  destruct (Nat.le_gt_cases n (free_bits w (length l))) as [Q|Q]; auto.
  right. right. intros Z. apply C. destruct (nblocks_spec w (length l)) as [N1 N2].
  replace (length l + n) with ((n - free_bits w (length l)) + nblocks w (length l) * w) by (unfold free_bits in *; lia).
  now rewrite Nat.mod_add by lia.
Qed.
Print Assumptions C11_append_partial.

(** In every other case it is wrong: undefined shift... *)
Theorem C11_append_undefined_refuted : forall w, width w -> 32 <= w -> forall tw b l v n, 0 < tw -> repr w b l -> (v < 2 ^ N.of_nat tw)%N ->
  room w (length l) < n -> (length l + n) mod w = 0 -> AppendBits w tw b v n = Fault FUB.
Proof.
  intros w Hw H32 tw b l v n H0 R Hv Hn Hm. pose proof (width_pos w Hw). rewrite (room_free w) in *.
  pose proof (AppendBits_full w tw b l v n H0 R Hv) as F. cbv zeta in F.
  destruct (Nat.leb_spec 32 w); [|lia]. destruct (Nat.ltb_spec 0 (n - free_bits w (length l))); [|lia].
  destruct (Nat.eqb_spec ((n - free_bits w (length l)) mod w) 0) as [Z|Z]; [exact F|]. exfalso. apply Z.
  destruct (nblocks_spec w (length l)) as [N1 N2].
  rewrite <- (Nat.mod_add _ (nblocks w (length l)) w) by lia. rewrite <- Hm. f_equal. unfold free_bits in *. lia.
Qed.
Print Assumptions C11_append_undefined_refuted.

(** ... or stray bits past the size. *)
Theorem C11_append_leak_refuted : forall w, width w -> forall tw b l v n j b', 0 < tw -> repr w b l -> (v < 2 ^ N.of_nat tw)%N ->
  n <= j < room w (length l) -> N.testbit v (N.of_nat j) = true -> AppendBits w tw b v n = Done b' ->
  N.testbit (nth ((length l + j) / w) (blocks b') 0%N) (N.of_nat ((length l + j) mod w)) = true /\ GetSize b' <= length l + j.
Proof.
  intros w Hw tw b l v n j b' H0 R Hv Hj T E. rewrite (room_free w) in Hj.
  pose proof (AppendBits_full w tw b l v n H0 R Hv) as F. cbv zeta in F.
  assert (Z : n - free_bits w (length l) = 0) by lia. rewrite Z in F. change (0 <? 0) with false in F.
  rewrite andb_false_r in F. cbn [andb] in F. destruct F as (l' & E' & L & S & B). rewrite E in E'. injection E' as ->.
  cbn [blocks bitCount GetSize]. split; [|lia]. fold (lbit w l' (length l + j)). rewrite B.
  destruct (Nat.ltb_spec (length l + j) (length l)); [lia|]. destruct (Nat.ltb_spec (length l + j) (length l + n)); [lia|].
  change (0 =? 0) with true. cbn [andb].
  destruct (Nat.ltb_spec (length l + j) (w * nblocks w (length l))); [|unfold free_bits in Hj; lia].
  now replace (length l + j - length l) with j by lia.
Qed.
Print Assumptions C11_append_leak_refuted.

(** The visible bits are right whenever the call returns. *)
Theorem C11_visible_bits : forall w, width w -> forall tw b l v n b', 0 < tw -> repr w b l -> (v < 2 ^ N.of_nat tw)%N ->
  AppendBits w tw b v n = Done b' -> GetSize b' = length l + n /\
  forall i, i < length l + n -> Test w b' i = Done (if i <? length l then nth i l false else N.testbit v (N.of_nat (i - length l))).
Proof.
  intros w Hw tw b l v n b' H0 R Hv E. destruct (AppendBits_test w tw b l v n b' H0 R Hv E) as (A & B). split; [exact A|].
  intros i Hi. rewrite (B i Hi). f_equal. unfold sbit. rewrite nth_app_full. destruct (Nat.ltb_spec i (length l)); [reflexivity|].
  fold (sbit (nbits n v) (i - length l)). rewrite sbit_nbits. destruct (Nat.ltb_spec (i - length l) n); [reflexivity | lia].
Qed.
Print Assumptions C11_visible_bits.
Example C11_leak_witness : AppendBits 8 8 (mkB [1]%N 1) 255 2 = Done (mkB [255]%N 3) /\ Count 8 (mkB [255]%N 3) = 8.
Proof. vm_compute. auto. Qed.
Example C11_ub_witness : AppendBits 32 32 empty 5 32 = Fault FUB.
Proof. reflexivity. Qed.
Example C11_nonvacuous : AppendBits 8 32 (mkB [1]%N 1) 4660 13 = Done (mkB [105; 36]%N 14).
Proof. reflexivity. Qed.

(** *** C12 *)
Theorem C12_write_partial : forall w, width w -> forall mem b l ptr second n, repr w b l ->
  Forall (fun x => (x < 256)%N) mem -> second < 8 -> 0 < second + n -> 8 * ptr + second + n <= 8 * length mem ->
  no_stray w mem (length l) ptr second n ->
  exists b' p', Write w mem b (ptr, second) n = Done (b', (p', (second + n) mod 8)) /\
    8 * p' + (second + n) mod 8 = 8 * ptr + second + n /\
    repr w b' (l ++ firstn n (skipn (8 * ptr + second) (stream mem))).
Proof.
  intros w Hw mem b l ptr second n R HM Hs H0 HR NS.
  destruct (Write_repr w mem b l ptr second n R HM Hs H0 HR NS) as (b' & p' & E & P & R').
  exists b', p'. split; [exact E|]. split; [exact P|].
  rewrite slice_firstn_skipn in R' by (rewrite stream_length; lia). exact R'.
Qed.
Print Assumptions C12_write_partial.

(** Continuing from the returned position is the same as reading everything at once. *)
Theorem C12_chunks_partial : forall w, width w -> forall mem b l ptr second n1 n2, repr w b l ->
  Forall (fun x => (x < 256)%N) mem -> second < 8 -> 0 < n1 -> 0 < n2 -> 8 * ptr + second + n1 + n2 <= 8 * length mem ->
  no_stray w mem (length l) ptr second n1 -> no_stray w mem (length l) ptr second (n1 + n2) ->
  no_stray w mem (length l + n1) (ptr + (second + n1) / 8) ((second + n1) mod 8) n2 ->
  exists b1 s1 b2 s2, Write w mem b (ptr, second) n1 = Done (b1, s1) /\ Write w mem b1 s1 n2 = Done (b2, s2) /\
    Write w mem b (ptr, second) (n1 + n2) = Done (b2, s2).
Proof.
  intros w Hw mem b l ptr second n1 n2 R HM Hs H1 H2 HR NS1 NS12 NS2.
  destruct (Write_repr w mem b l ptr second n1) as (b1 & p1 & E1 & P1 & R1); auto; try lia.
  assert (Q1 : p1 = ptr + (second + n1) / 8).
  { pose proof (Nat.div_mod (second + n1) 8 ltac:(lia)). lia. }
  subst p1. pose proof (Nat.mod_upper_bound (second + n1) 8 ltac:(lia)) as M1.
  destruct (Write_repr w mem b1 _ (ptr + (second + n1) / 8) ((second + n1) mod 8) n2 R1) as (b2 & p2 & E2 & P2 & R2); auto; try lia.
  { rewrite app_length, slice_length. exact NS2. }
  destruct (Write_repr w mem b l ptr second (n1 + n2)) as (b3 & p3 & E3 & P3 & R3); auto; try lia.
  exists b1. eexists. exists b2. eexists. split; [exact E1|]. split; [exact E2|]. rewrite E3.
  rewrite P1 in R2. rewrite <- app_assoc, <- slice_app in R2. rewrite (repr_inj w _ _ _ R3 R2). f_equal. f_equal.
  pose proof (Nat.mod_upper_bound (second + (n1 + n2)) 8 ltac:(lia)). pose proof (Nat.mod_upper_bound ((second + n1) mod 8 + n2) 8 ltac:(lia)).
  assert (p3 = p2 /\ (second + (n1 + n2)) mod 8 = ((second + n1) mod 8 + n2) mod 8) as [-> ->]; [lia | reflexivity].
Qed.
Print Assumptions C12_chunks_partial.

(** The side condition holds for whole bytes, and when the last byte starts a block of the destination. *)
Theorem C12_no_stray_whole_bytes : forall w, width w -> forall mem len ptr second n, 0 < second + n -> (second + n) mod 8 = 0 ->
  no_stray w mem len ptr second n.
Proof. exact no_stray_bytes. Qed.
Print Assumptions C12_no_stray_whole_bytes.

Theorem C12_bytes_partial : forall w, width w -> forall mem n, Forall (fun x => (x < 256)%N) mem -> 0 < n <= length mem ->
  exists b, FromPointer w mem 0 (8 * n) = Done (b, (n, 0)) /\ repr w b (firstn (8 * n) (stream mem)).
Proof.
  intros w Hw mem n HM Hn. unfold FromPointer.
  assert (M : (0 + 8 * n) mod 8 = 0) by (rewrite Nat.add_0_l, Nat.mul_comm; apply Nat.mod_mul; lia).
  destruct (C12_write_partial w Hw mem empty [] 0 0 (8 * n)) as (b & p & E & P & R); try lia; auto.
  - apply (repr_empty w).
  - apply (no_stray_bytes w); [lia | exact M].
  - rewrite M in *. assert (p = n) by lia. subst p. exists b. split; [exact E|]. exact R.
Qed.
Print Assumptions C12_bytes_partial.

(** Defects: n = 0 reads a byte (out of range at the end of the buffer) and skips one; a partial last byte leaks. *)
Theorem C12_zero_bits_refuted : Write 8 [170]%N empty (0, 0) 0 = Done (empty, (1, 0)) /\ Write 8 [] empty (0, 0) 0 = Fault FUB.
Proof. vm_compute. auto. Qed.
Theorem C12_leak_refuted : exists b, FromPointer 32 [255; 255]%N 0 12 = Done (b, (1, 4)) /\ GetSize b = 12 /\ Count 32 b = 16.
Proof. eexists. split; [reflexivity|]. vm_compute. auto. Qed.
Print Assumptions C12_zero_bits_refuted.
Print Assumptions C12_leak_refuted.
Example C12_nonvacuous : FromPointer 8 [165; 60]%N 0 12 = Done (mkB [165; 12]%N 12, (1, 4)).
Proof. reflexivity. Qed.

(** *** C13 *)
Theorem C13_equality : forall w, width w -> forall a b la lb, repr w a la -> repr w b lb ->
  exists r, equals a b = Done r /\ (r = true <-> forall i, nth i la false = nth i lb false).
Proof. intros w Hw a b la lb Ra Rb. exact (equals_repr w a b la lb Ra Rb). Qed.
Print Assumptions C13_equality.

Theorem C13_equivalence : forall w, width w -> forall a b c la lb lc, repr w a la -> repr w b lb -> repr w c lc ->
  equals a a = Done true /\ equals a b = equals b a /\
  (equals a b = Done true -> equals b c = Done true -> equals a c = Done true).
Proof.
  intros w Hw a b c la lb lc Ra Rb Rc.
  destruct (C13_equality w Hw a a la la Ra Ra) as (r1 & E1 & H1). destruct (C13_equality w Hw a b la lb Ra Rb) as (r2 & E2 & H2).
  destruct (C13_equality w Hw b a lb la Rb Ra) as (r3 & E3 & H3). destruct (C13_equality w Hw b c lb lc Rb Rc) as (r4 & E4 & H4).
  destruct (C13_equality w Hw a c la lc Ra Rc) as (r5 & E5 & H5). rewrite E1, E2, E3, E4, E5. split; [|split].
  - f_equal. now apply H1.
  - f_equal. apply Bool.eq_iff_eq_true. rewrite H2, H3. split; intros H i; now rewrite H.
  - intros [= ->] [= ->]. f_equal. apply H5. intros i. rewrite (proj1 H2 eq_refl). now apply H4.
Qed.
Print Assumptions C13_equivalence.
Example C13_nonvacuous : equals (mkB [5]%N 3) (mkB [5; 0]%N 12) = Done true /\ equals (mkB [5]%N 3) (mkB [5; 1]%N 12) = Done false.
Proof. vm_compute. auto. Qed.

(** *** C14: what operator< does, the case where it is right, and the two defects *)
Theorem C14_less_exact : forall w, width w -> forall a b, less a b =
  if length (blocks a) =? length (blocks b)
  then Done (existsb (fun i => (nth i (blocks a) 0 <? nth i (blocks b) 0)%N) (rev (range 0 (length (blocks a)))))
  else Fault FAssert.
Proof. intros w Hw a b. exact (less_exact w a b). Qed.
Print Assumptions C14_less_exact.
Theorem C14_one_block_partial : forall w, width w -> forall a b la lb, repr w a la -> repr w b lb ->
  0 < length la <= w -> 0 < length lb <= w -> less a b = Done (s_value la <? s_value lb)%N.
Proof. intros w Hw a b la lb. apply (less_one_block w). Qed.
Print Assumptions C14_one_block_partial.
Theorem C14_not_antisymmetric_refuted : let a := mkB [0; 2]%N 16 in let b := mkB [1; 1]%N 16 in
  repr 8 a (nbits 16 512) /\ repr 8 b (nbits 16 257) /\ less a b = Done true /\ less b a = Done true.
Proof.
  assert (R : forall x y, (x < 256)%N -> (y < 256)%N -> repr 8 (mkB [x; y] 16) (nbits 16 (x + 256 * y))).
  { intros x y Hx Hy. split; [reflexivity|]. split; [reflexivity|]. split; [repeat constructor; assumption|].
    intros k. rewrite sbit_nbits. cbn [blocks]. destruct (Nat.ltb_spec k 16) as [K|K].
    - replace (x + 256 * y)%N with (x + y * 2 ^ 8)%N by (change (2 ^ 8)%N with 256%N; lia).
      unfold lbit. destruct (Nat.lt_ge_cases k 8) as [K2|K2].
      + rewrite Nat.div_small, Nat.mod_small by assumption. cbn [nth].
        rewrite <- (N.mod_pow2_bits_low (x + y * 2 ^ 8) 8) by lia. rewrite N.mod_add by (now vm_compute).
        now rewrite N.mod_small.
      + replace k with (8 * 1 + (k - 8)) at 1 2 by lia. rewrite (div_unique_w 8), (mod_unique_w 8) by lia. cbn [nth].
        replace (N.of_nat k) with (N.of_nat (k - 8) + 8)%N by lia. rewrite <- N.div_pow2_bits.
        rewrite N.div_add by (now vm_compute). now rewrite N.div_small.
    - apply (lbit_high 8). exact K. }
  cbv zeta. split; [exact (R 0 2 ltac:(lia) ltac:(lia))%N|]. split; [exact (R 1 1 ltac:(lia) ltac:(lia))%N|]. vm_compute. auto.
Qed.
Print Assumptions C14_not_antisymmetric_refuted.
Theorem C14_different_sizes_refuted : less (mkB [1]%N 8) (mkB [1; 0]%N 9) = Fault FAssert.
Proof. reflexivity. Qed.
Print Assumptions C14_different_sizes_refuted.

(** *** C15 *)
Theorem C15_unbounded : forall w, width w -> forall b l, repr w b l ->
  (forall i, UnboundedTest w b i = Done (nth i l false)) /\
  (forall i v, exists b' l', UnboundedSet w b i v = Done b' /\ repr w b' l' /\
     length l' = (if v then Nat.max (length l) (i + 1) else length l) /\
     (forall j, nth j l' false = if j =? i then v else nth j l false)) /\
  (forall i, exists b' l', UnboundedReset w b i = Done b' /\ repr w b' l' /\ length l' = length l /\
     (forall j, nth j l' false = if j =? i then false else nth j l false)).
Proof.
  intros w Hw b l R. split; [intros i; exact (UnboundedTest_repr w b l i R)|].
  assert (P : forall i v, exists b' l', UnboundedSet w b i v = Done b' /\ repr w b' l' /\
     length l' = (if v then Nat.max (length l) (i + 1) else length l) /\
     (forall j, nth j l' false = if j =? i then v else nth j l false)).
  { intros i v. destruct (UnboundedSet_repr w b l i v R) as (b' & E & R'). exists b', (s_uset l i v).
    split; [exact E|]. split; [exact R'|]. unfold s_uset. destruct (Nat.ltb_spec i (length l)) as [H|H].
    - rewrite upd_length. split; [destruct v; lia|]. intros j. rewrite nth_upd.
      destruct (Nat.ltb_spec i (length l)); [|lia]. now rewrite andb_true_r.
    - destruct v.
      + split; [rewrite !app_length, repeat_length; simpl; lia|]. intros j.
        rewrite !nth_app_full, repeat_length, nth_repeat_full.
        destruct (Nat.ltb_spec j (length l)), (Nat.eqb_spec j i); try lia; try reflexivity.
        * subst. destruct (Nat.ltb_spec (i - length l) (i - length l)); [lia|]. now rewrite Nat.sub_diag.
        * rewrite (nth_overflow l) by assumption. destruct (Nat.ltb_spec (j - length l) (i - length l)); [reflexivity|].
          apply nth_overflow. simpl. lia.
      + split; [reflexivity|]. intros j. destruct (Nat.eqb_spec j i); [|reflexivity]. subst. now apply nth_overflow. }
  split; [exact P|]. intros i. exact (P i false).
Qed.
Print Assumptions C15_unbounded.
Example C15_nonvacuous : UnboundedSet 8 (mkB [3]%N 2) 9 true = Done (mkB [3; 2]%N 10) /\ UnboundedSet 8 (mkB [3]%N 2) 9 false = Done (mkB [3]%N 2).
Proof. vm_compute. auto. Qed.

(** *** C16: the postfix operator returns the *next* position and does not move the iterator, so a loop using it
    never ends *)
Theorem C16_postfix_refuted : forall w b it copy it', iter_postincr w b it = Done (copy, it') ->
  it' = it /\ iter_incr w b it = Done copy.
Proof.
  intros w b it copy it' H. unfold iter_postincr in H. apply bind_done in H as (c & E & H). injection H as <- <-. auto.
Qed.
Print Assumptions C16_postfix_refuted.
Example C16_witness : iter_postincr 8 (mkB [6]%N 8) (Some 1) = Done (Some 2, Some 1).
Proof. reflexivity. Qed.

(** *** C17: the destination of a move is right; the source keeps a size with no storage *)
Theorem C17_move_destination_partial : forall w, width w -> forall st d s l, d <> s -> repr w (st s) l -> repr w (move_assign st d s d) l.
Proof.
  intros w Hw st d s l Hne R. unfold move_assign, sput. rewrite Nat.eqb_refl. destruct (Nat.eqb_spec d s); [lia | exact R].
Qed.
Print Assumptions C17_move_destination_partial.
Theorem C17_moved_from_refuted : forall w, width w -> forall st d s l i, d <> s -> repr w (st s) l -> i < length l ->
  Test w (move_assign st d s s) i = Fault FUB /\ (forall v, Set_ w (move_assign st d s s) i v = Fault FUB) /\
  GetSize (move_assign st d s s) = length l /\ FindNext w (move_assign st d s s) i = (if i + 1 <? length l then Fault FUB else Done None).
Proof.
  intros w Hw st d s l i Hne R Hi. unfold move_assign, sput. rewrite Nat.eqb_refl.
  destruct R as (HC & _). unfold Test, Set_, FindNext, GetSize. cbn [bitCount blocks]. rewrite HC.
  destruct (Nat.ltb_spec i (length l)); [|lia]. cbn [assert bind].
  assert (V : forall k, vget (@nil N) k = Fault FUB) by (intros []; reflexivity). rewrite V. cbn [bind].
  repeat split. rewrite V. cbn [bind]. destruct (Nat.leb_spec (length l) (i + 1)), (Nat.ltb_spec (i + 1) (length l)); try lia; reflexivity.
Qed.
Print Assumptions C17_moved_from_refuted.
(** Clearing or reassigning the source makes it valid again. *)
Theorem C17_clear_recovers_partial : forall w, width w -> forall b, repr w (Clear b) [].
Proof. intros w Hw b. exact (repr_empty w). Qed.
Print Assumptions C17_clear_recovers_partial.

(** *** C18 *)
Theorem C18_bit_proxy : forall w, width w -> forall b l i r, repr w b l -> i < length l -> bit_ref w b i = Done r ->
  Bit_Test b r = Test w b i /\ Bit_Test b r = Done (nth i l false) /\
  (forall v, exists b', Bit_Set w b r v = Done b' /\ repr w b' (upd l i v)) /\
  (exists b', Bit_Reset w b r = Done b' /\ repr w b' (upd l i false)) /\
  (exists b', Bit_Flip b r = Done b' /\ repr w b' (upd l i (negb (nth i l false)))) /\
  (forall v, (exists b', Bit_or w b r v = Done b' /\ repr w b' (upd l i (nth i l false || v))) /\
     (exists b', Bit_and w b r v = Done b' /\ repr w b' (upd l i (nth i l false && v))) /\
     (exists b', Bit_xor w b r v = Done b' /\ repr w b' (upd l i (xorb (nth i l false) v))) /\
     (exists b', Bit_minus w b r v = Done b' /\ repr w b' (upd l i (nth i l false && negb v)))).
Proof.
  intros w Hw b l i r R Hi E. pose proof (Bit_Test_repr w b l i r R Hi E) as T.
  split. { rewrite T, (Test_repr w b l i R). destruct (Nat.ltb_spec i (length l)); [reflexivity | lia]. }
  split; [exact T|]. split; [intros v; exact (Bit_Set_repr w b l i r v R Hi E)|].
  split; [exact (Bit_Set_repr w b l i r false R Hi E)|]. split; [exact (Bit_Flip_repr w b l i r R Hi E)|].
  intros v. exact (Bit_ops_repr w b l i r v R Hi E).
Qed.
Print Assumptions C18_bit_proxy.
Theorem C18_proxy_exists : forall w, width w -> forall b l i, repr w b l -> i < length l -> exists r, bit_ref w b i = Done r.
Proof. intros w Hw b l i R Hi. eexists. exact (bit_ref_done w b l i R Hi). Qed.
Print Assumptions C18_proxy_exists.
(** operator[] does not check the size: a proxy past the size but inside the last block dirties the storage. *)
Theorem C18_no_bound_check_refuted : exists r b', bit_ref 8 (mkB [0]%N 3) 5 = Done r /\ Bit_Set 8 (mkB [0]%N 3) r true = Done b' /\ Count 8 b' = 1 /\ b' = mkB [32]%N 3.
Proof. do 2 eexists. split; [reflexivity|]. split; [reflexivity|]. vm_compute. auto. Qed.
Print Assumptions C18_no_bound_check_refuted.

(** *** C75: FixedBitset<Block, Capacity> stores FixedVector<Block, (Capacity + 7) / 8> (Bitset.hpp 146-150) *)
Theorem C75_capacity : forall w, width w -> forall capacity n, n <= capacity -> ComputeBlockCount w n <= (capacity + 7) / 8.
Proof.
  intros w Hw capacity n Hn. rewrite (ComputeBlockCount_nblocks w). pose proof (width_pos w Hw).
  assert (8 <= w) by (destruct Hw as [H1|[H1|[H1|H1]]]; lia).
  unfold nblocks. apply Nat.le_trans with ((n + 7) / 8); [|apply Nat.div_le_mono; lia].
  apply Nat.div_le_lower_bound; [lia|]. destruct (divmod_w w (n + w - 1)) as [D1 D2].
  set (q := (n + w - 1) / w) in *. destruct (Nat.eq_dec q 0) as [->|Hq]; [lia|].
  assert (8 * (q - 1) <= w * (q - 1)) by (apply Nat.mul_le_mono_r; lia).
  pose proof (wmul_succ w q ltac:(lia)). lia.
Qed.
Print Assumptions C75_capacity.
