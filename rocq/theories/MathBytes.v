(** Proofs about MathModel.v (third part): byte and bit order, single bits, Clamp, Approach, comparisons, shifts, powers. *)
From Verif Require Import Base CInt MathModel MathProofs MathProofs2 MathMisc.
Open Scope Z_scope.
Ltac Zify.zify_post_hook ::= Z.div_mod_to_equations.

(** ** Bytes *)
(** Byte [k] of [v], least significant first. *)
Definition byte (v k : Z) : Z := (v / 2 ^ (8 * k)) mod 2 ^ 8.
Definition nbytes (t : ity) : nat := Z.to_nat (wid t / 8).

Lemma byte_bits v k i : 0 <= k -> 0 <= i -> Z.testbit (byte v k) i = (i <? 8) && Z.testbit v (8 * k + i).
Proof.
  intros Hk Hi. unfold byte. destruct (Z.ltb_spec i 8).
  - rewrite Z.mod_pow2_bits_low, Z.div_pow2_bits by lia. cbn [andb]. f_equal. lia.
  - apply Z.mod_pow2_bits_high. lia.
Qed.

Definition swap_index (w i : Z) : Z := w - 8 - 8 * (i / 8) + i mod 8.

Ltac one_bit := rewrite ?Z.lor_spec, ?Z.shiftl_spec, ?Z.shiftr_spec, ?Z.land_spec by lia;
  repeat match goal with |- context [Z.testbit ?c ?i] =>
    lazymatch c with Zpos _ => let r := eval vm_compute in (Z.testbit c i) in change (Z.testbit c i) with r end end;
  rewrite ?andb_true_r, ?andb_false_r, ?orb_false_r, ?orb_false_l; try reflexivity.

Lemma ByteSwap16_bits v i : 0 <= i < 16 -> Z.testbit (ByteSwap16 v) i = Z.testbit v (swap_index 16 i).
Proof.
  intros Hi. unfold ByteSwap16. rewrite cast_unsigned_mod by reflexivity. cbn [wid u16]. rewrite Z.mod_pow2_bits_low by lia.
  assert (In i (zpow 4 0)) as H by (apply zpow_in; exact Hi). vm_compute in H.
  repeat (destruct H as [<-|H]; [one_bit|]); contradiction.
Qed.
Lemma ByteSwap32_bits v i : 0 <= i < 32 -> Z.testbit (ByteSwap32 v) i = Z.testbit v (swap_index 32 i).
Proof.
  intros Hi. unfold ByteSwap32. rewrite cast_unsigned_mod by reflexivity. cbn [wid u32]. rewrite Z.mod_pow2_bits_low by lia.
  assert (In i (zpow 5 0)) as H by (apply zpow_in; exact Hi). vm_compute in H.
  repeat (destruct H as [<-|H]; [one_bit|]); contradiction.
Qed.
Lemma ByteSwap64_bits v i : 0 <= i < 64 -> Z.testbit (ByteSwap64 v) i = Z.testbit v (swap_index 64 i).
Proof.
  intros Hi. unfold ByteSwap64. rewrite cast_unsigned_mod by reflexivity. cbn [wid u64]. rewrite Z.mod_pow2_bits_low by lia.
  assert (In i (zpow 6 0)) as H by (apply zpow_in; exact Hi). vm_compute in H.
  repeat (destruct H as [<-|H]; [one_bit|]); contradiction.
Qed.

Lemma ByteSwap_range t v : In t int_types -> in_range t v = true -> in_range t (ByteSwap t v) = true.
Proof. intros Ht Hv. unfold ByteSwap. destruct (wid t =? 8); [exact Hv | now apply cast_any_range]. Qed.

Lemma ByteSwap_bits t v i : In t int_types -> 0 <= i < wid t ->
  Z.testbit (ByteSwap t v) i = Z.testbit v (swap_index (wid t) i).
Proof.
  intros Ht Hi. unfold ByteSwap. destruct (type_widths t Ht) as [W|[W|[W|W]]]; rewrite W in *; cbn [Z.eqb Pos.eqb].
  - f_equal. unfold swap_index. lia.
  - rewrite cast_low_any by lia. apply ByteSwap16_bits; lia.
  - rewrite cast_low_any by lia. apply ByteSwap32_bits; lia.
  - rewrite cast_low_any by lia. apply ByteSwap64_bits; lia.
Qed.

Lemma wid_bytes t : In t int_types -> wid t = 8 * (wid t / 8).
Proof. intros Ht. each_type Ht; reflexivity. Qed.
Lemma ByteSwap_byte t v k : In t int_types -> 0 <= k < wid t / 8 ->
  byte (ByteSwap t v) k = byte v (wid t / 8 - 1 - k).
Proof.
  intros Ht Hk. apply Z.bits_inj'. intros i Hi. rewrite !byte_bits by lia. destruct (Z.ltb_spec i 8); cbn [andb]; [|reflexivity].
  pose proof (wid_bytes t Ht) as W.
  rewrite ByteSwap_bits; trivial; [|lia]. f_equal. unfold swap_index. lia.
Qed.

(** Two values of a type with the same bytes are equal. *)
Lemma bytes_ext t v v' : In t int_types -> in_range t v = true -> in_range t v' = true ->
  (forall k, 0 <= k < wid t / 8 -> byte v k = byte v' k) -> v = v'.
Proof.
  intros Ht Hv Hv' H. apply (in_range_ext t); trivial. intros i Hi. pose proof (wid_bytes t Ht) as W. clear Hv Hv'.
  specialize (H (i / 8) ltac:(lia)). apply (f_equal (fun x => Z.testbit x (i mod 8))) in H.
  rewrite !byte_bits in H by lia. replace (i mod 8 <? 8) with true in H by lia. cbn [andb] in H.
  replace (8 * (i / 8) + i mod 8) with i in H by lia. exact H.
Qed.

Lemma ByteSwap_involutive t v : In t int_types -> in_range t v = true -> ByteSwap t (ByteSwap t v) = v.
Proof.
  intros Ht Hv. pose proof (ByteSwap_range t v Ht Hv) as R. apply (bytes_ext t); trivial; [now apply ByteSwap_range|].
  intros k Hk. clear Hv R. rewrite !ByteSwap_byte; trivial; [f_equal; lia | lia].
Qed.

(** The object representation of [v] in memory, lowest address first. *)
Definition memory_bytes (host_little : bool) (t : ity) (v : Z) : list Z :=
  let l := map (fun k => byte v (Z.of_nat k)) (seq 0 (nbytes t)) in if host_little then l else rev l.
Lemma nbytes_Z t : In t int_types -> Z.of_nat (nbytes t) = wid t / 8.
Proof. intros Ht. each_type Ht; reflexivity. Qed.

Lemma memory_swap hl t v : In t int_types ->
  memory_bytes hl t (ByteSwap t v) = rev (memory_bytes hl t v).
Proof.
  intros Ht. assert (G : map (fun k => byte (ByteSwap t v) (Z.of_nat k)) (seq 0 (nbytes t)) =
                            rev (map (fun k => byte v (Z.of_nat k)) (seq 0 (nbytes t)))).
  { pose proof (nbytes_Z t Ht) as NB. apply (list_ext 0); [now rewrite rev_length, !map_length|]. intros i Hi.
    rewrite map_length, seq_length in Hi. rewrite rev_nth by (now rewrite map_length, seq_length). rewrite map_length, seq_length.
    rewrite !nth_map_seq.
    destruct (Nat.ltb_spec i (nbytes t)), (Nat.ltb_spec (nbytes t - S i) (nbytes t)); try lia.
    rewrite ByteSwap_byte; trivial; [f_equal; lia | lia]. }
  unfold memory_bytes. destruct hl; rewrite G; [reflexivity|]. reflexivity.
Qed.

(** ** SwapBytes: reversal of a buffer *)
Lemma SwapBytes_loop_spec fuel : forall buf i j, 0 <= i -> i <= j + 1 -> j < Z.of_nat (length buf) -> j <= i + Z.of_nat fuel ->
  exists buf', SwapBytes_loop fuel buf i j = Done buf' /\ length buf' = length buf /\
    forall k, 0 <= Z.of_nat k < Z.of_nat (length buf) ->
      nth k buf' 0 = if (i <=? Z.of_nat k) && (Z.of_nat k <=? j) then nth (Z.to_nat (i + j - Z.of_nat k)) buf 0 else nth k buf 0.
Proof.
  induction fuel as [|fuel IH]; intros buf i j Hi Hij Hj HF; cbn [SwapBytes_loop].
  - destruct (Z.ltb_spec i j); [lia|]. exists buf. split; [reflexivity|]. split; [reflexivity|]. intros k Hk.
    destruct ((i <=? Z.of_nat k) && (Z.of_nat k <=? j)) eqn:E; [|reflexivity]. f_equal. lia.
  - destruct (Z.ltb_spec i j) as [C|C].
    + destruct (Z.ltb_spec j (Z.of_nat (length buf))); [|lia].
      rewrite !(vget_done _ _ 0) by lia. cbn [bind]. rewrite vset_done by lia. cbn [bind]. rewrite vset_done by (rewrite upd_length; lia). cbn [bind].
      set (b2 := upd (upd buf (Z.to_nat i) (nth (Z.to_nat j) buf 0)) (Z.to_nat j) (nth (Z.to_nat i) buf 0)).
      assert (L2 : length b2 = length buf) by (unfold b2; now rewrite !upd_length).
      destruct (IH b2 (i + 1) (j - 1)) as (b' & E & L & P); try lia. exists b'. split; [exact E|]. split; [lia|].
      intros k Hk. rewrite P by lia. unfold b2. rewrite !nth_upd, !upd_length.
      destruct (Z.leb_spec (i + 1) (Z.of_nat k)), (Z.leb_spec (Z.of_nat k) (j - 1)), (Z.leb_spec i (Z.of_nat k)), (Z.leb_spec (Z.of_nat k) j);
        cbn [andb]; try lia;
        repeat match goal with |- context [(?a =? ?b)%nat] => destruct (Nat.eqb_spec a b) end;
        repeat match goal with |- context [(?a <? ?b)%nat] => destruct (Nat.ltb_spec a b) end; cbn [andb]; try lia; try reflexivity; f_equal; lia.
    + exists buf. split; [reflexivity|]. split; [reflexivity|]. intros k Hk.
      destruct ((i <=? Z.of_nat k) && (Z.of_nat k <=? j)) eqn:E; [|reflexivity]. f_equal. lia.
Qed.

Lemma SwapBytes_spec buf n : (0 < n <= length buf)%nat -> Z.of_nat n <= 2 ^ 64 ->
  SwapBytes buf (Z.of_nat n) = Done (rev (firstn n buf) ++ skipn n buf).
Proof.
  intros Hn HM. unfold SwapBytes. rewrite cast_id by (ranges; lia).
  destruct (SwapBytes_loop_spec (S (length buf)) buf 0 (Z.of_nat n - 1)) as (b' & E & L & P); try lia.
  rewrite E. f_equal. apply (list_ext 0).
  - rewrite app_length, rev_length, firstn_length, skipn_length. lia.
  - intros k Hk. rewrite P by lia. rewrite nth_app_full, rev_length, firstn_length.
    destruct (Nat.ltb_spec k (Nat.min n (length buf))) as [C|C].
    + replace ((0 <=? Z.of_nat k) && (Z.of_nat k <=? Z.of_nat n - 1)) with true by lia.
      rewrite rev_nth by (rewrite firstn_length; lia). rewrite firstn_length, nth_firstn.
      destruct (Nat.ltb_spec (Nat.min n (length buf) - S k) n); [|lia]. f_equal. lia.
    + replace ((0 <=? Z.of_nat k) && (Z.of_nat k <=? Z.of_nat n - 1)) with false by lia. rewrite nth_skipn. f_equal. lia.
Qed.

(** With size 0 the upper index wraps to 2^64 - 1: out of any buffer. *)
Lemma SwapBytes_zero buf : Z.of_nat (length buf) < 2 ^ 64 -> SwapBytes buf 0 = Fault FUB.
Proof.
  intros H. unfold SwapBytes. change (cast u64 (0 - 1)) with (2 ^ 64 - 1). cbn [SwapBytes_loop].
  replace (0 <? 2 ^ 64 - 1) with true by lia. replace (2 ^ 64 - 1 <? Z.of_nat (length buf)) with false by lia. reflexivity.
Qed.

(** ** ReverseBits *)
Lemma reverse_table b : 0 <= b < 256 -> exists r, table s_BitReverseTable256 b = Done r /\ 0 <= r < 256 /\
  forall i, 0 <= i < 8 -> Z.testbit r i = Z.testbit b (7 - i).
Proof.
  intros Hb.
  assert (G : match table s_BitReverseTable256 b with Done r => (0 <=? r) && (r <? 256) && forallb (fun i => Bool.eqb (Z.testbit r i) (Z.testbit b (7 - i))) (zpow 3 0) | _ => false end = true).
  { apply (sweep 8 0 (fun b => match table s_BitReverseTable256 b with Done r => (0 <=? r) && (r <? 256) && forallb (fun i => Bool.eqb (Z.testbit r i) (Z.testbit b (7 - i))) (zpow 3 0) | _ => false end)); [vm_compute; reflexivity | exact Hb]. }
  destruct (table s_BitReverseTable256 b) as [r|]; [|discriminate]. exists r. split; [reflexivity|].
  apply andb_prop in G as [G1 G2]. split; [lia|]. intros i Hi. rewrite forallb_forall in G2.
  apply Bool.eqb_prop. apply G2. apply zpow_in. exact Hi.
Qed.

Lemma ReverseBits_spec t v : In t int_types ->
  exists r, ReverseBits t v = Done r /\ in_range t r = true /\ forall i, 0 <= i < wid t -> Z.testbit r i = Z.testbit v (wid t - 1 - i).
Proof.
  intros Ht. pose proof (type_widths t Ht) as HW. set (w := wid t) in *.
  pose (P := fun (k : nat) r => in_range t r = true /\ forall i, 0 <= i < w -> Z.testbit r i = (w - 8 * Z.of_nat k <=? i) && Z.testbit v (w - 1 - i)).
  unfold ReverseBits. fold w.
  destruct (foreach_range P (fun (reversed : Z) (i : nat) => b <- table s_BitReverseTable256 (Z.land (Z.shiftr v (Z.of_nat i * 8)) 255);;
       Done (cast t (Z.lor reversed (Z.shiftl b (w - (Z.of_nat i + 1) * 8))))) 0 (Z.to_nat (w / 8)) 0) as (r & E & R1 & R2).
  - lia.
  - split; [clear - Ht; each_type Ht; reflexivity|]. intros i Hi. rewrite Z.bits_0. replace (w - 8 * Z.of_nat 0 <=? i) with false by lia. reflexivity.
  - intros k r Hk (R1 & R2). clear R1.
    assert (B : 0 <= Z.land (Z.shiftr v (Z.of_nat k * 8)) 255 < 256).
    { change 255 with (Z.ones 8). rewrite Z.land_ones by lia. apply Z.mod_pos_bound. lia. }
    destruct (reverse_table _ B) as (b & -> & HB & BB). cbn [bind]. eexists. split; [reflexivity|].
    split; [now apply cast_any_range|].
    intros i Hi. rewrite cast_low_any, Z.lor_spec, R2, Z.shiftl_spec by (fold w; lia).
    destruct (Z.lt_ge_cases i (w - (Z.of_nat k + 1) * 8)) as [C|C].
    + rewrite (Z.testbit_neg_r b) by lia.
      replace (w - 8 * Z.of_nat k <=? i) with false by lia. replace (w - 8 * Z.of_nat (k + 1) <=? i) with false by lia. reflexivity.
    + destruct (Z.lt_ge_cases i (w - 8 * Z.of_nat k)) as [D|D].
      * replace (w - 8 * Z.of_nat k <=? i) with false by lia. replace (w - 8 * Z.of_nat (k + 1) <=? i) with true by lia. cbn [andb orb].
        rewrite BB by lia. change 255 with (Z.ones 8). rewrite Z.land_spec, Z.shiftr_spec, Z.testbit_ones_nonneg by lia.
        replace (7 - (i - (w - (Z.of_nat k + 1) * 8)) <? 8) with true by lia. rewrite andb_true_r. f_equal. lia.
      * replace (w - 8 * Z.of_nat k <=? i) with true by lia. replace (w - 8 * Z.of_nat (k + 1) <=? i) with true by lia. cbn [andb].
        rewrite (pow2_high b 8) by lia. apply orb_false_r.
  - exists r. split; [exact E|]. split; [exact R1|]. clear R1. intros i Hi. rewrite R2 by exact Hi.
    replace (w - 8 * Z.of_nat (Z.to_nat (w / 8)) <=? i) with true by (destruct HW as [W|[W|[W|W]]]; rewrite W in *; cbn in *; lia). reflexivity.
Qed.

Lemma ReverseBits_involutive t v : In t int_types -> in_range t v = true ->
  exists r, ReverseBits t v = Done r /\ ReverseBits t r = Done v.
Proof.
  intros Ht Hv. destruct (ReverseBits_spec t v Ht) as (r & E & R & B). exists r. split; [exact E|].
  destruct (ReverseBits_spec t r Ht) as (r' & E' & R' & B'). rewrite E'. f_equal.
  apply (in_range_ext t); trivial. intros i Hi. clear Hv R R'. rewrite B', B by lia. f_equal. lia.
Qed.
