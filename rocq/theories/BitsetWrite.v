(** Write / FromPointer: reading a byte buffer as a bit stream. *)
From Verif Require Import Base CInt MathModel BitsetModel BitsetSpec BitsetBits BitsetProofs BitsetFind BitsetInt.
Open Scope nat_scope.

(** [m] bits of [st] from position [s]. *)
Definition slice (st : list bool) (s m : nat) : list bool := map (fun i => sbit st (s + i)) (seq 0 m).

Lemma slice_length st s m : length (slice st s m) = m.
Proof. unfold slice. now rewrite map_length, seq_length. Qed.

Lemma sbit_slice st s m k : sbit (slice st s m) k = if k <? m then sbit st (s + k) else false.
Proof. unfold slice. apply (sbit_map_seq (fun i => sbit st (s + i))). Qed.

Lemma slice_app st s m n : slice st s (m + n) = slice st s m ++ slice st (s + m) n.
Proof.
  apply (list_ext false).
  - now rewrite app_length, !slice_length.
  - intros i Hi. rewrite slice_length in Hi. rewrite nth_app_full, slice_length.
    change (nth i (slice st s (m + n)) false) with (sbit (slice st s (m + n)) i).
    change (nth i (slice st s m) false) with (sbit (slice st s m) i).
    change (nth (i - m) (slice st (s + m) n) false) with (sbit (slice st (s + m) n) (i - m)).
    rewrite !sbit_slice. destruct (Nat.ltb_spec i (m + n)), (Nat.ltb_spec i m), (Nat.ltb_spec (i - m) n); try lia; try reflexivity.
    f_equal. lia.
Qed.

(** In range, a slice is the usual list segment. *)
Lemma slice_firstn_skipn st s m : s + m <= length st -> slice st s m = firstn m (skipn s st).
Proof.
  intros H. apply (list_ext false).
  - rewrite slice_length, firstn_length, skipn_length. lia.
  - intros i Hi. rewrite slice_length in Hi. rewrite nth_firstn, nth_skipn.
    change (nth i (slice st s m) false) with (sbit (slice st s m) i). rewrite sbit_slice.
    destruct (Nat.ltb_spec i m); [reflexivity | lia].
Qed.

#[global] Instance width8 : width 8.
Proof. now left. Qed.

Lemma sbit_stream mem k : sbit (stream mem) k = N.testbit (nth (k / 8) mem 0%N) (N.of_nat (k mod 8)).
Proof. exact (sbit_flat 8 mem k). Qed.

Lemma stream_length mem : length (stream mem) = 8 * length mem.
Proof. exact (flat_bits_length 8 mem). Qed.

Lemma stream_at mem p j : j < 8 -> sbit (stream mem) (8 * p + j) = N.testbit (nth p mem 0%N) (N.of_nat j).
Proof. intros H. rewrite sbit_stream, (div_unique_w 8), (mod_unique_w 8) by assumption. reflexivity. Qed.

Lemma nbits_byte mem p n : n <= 8 -> nbits n (nth p mem 0%N) = slice (stream mem) (8 * p) n.
Proof.
  intros H. unfold nbits, slice. apply map_ext_in. intros i Hi. apply in_seq in Hi. now rewrite stream_at by lia.
Qed.

Section W.
Variable w : nat.
Context {Hw : width w}.
Let Wpos : 0 < w := width_pos w Hw.

Lemma w_ge8 : 8 <= w.
Proof. destruct Hw as [H|[H|[H|H]]]; lia. Qed.

Lemma w_cases : w < 32 \/ 32 <= w.
Proof. lia. Qed.

(** The chunk [AppendBits] calls made by Write: at most 8 bits each, hence never the undefined shift. *)
Lemma append_byte tw b l v n : 0 < tw -> repr w b l -> (v < 2 ^ N.of_nat tw)%N -> n <= 8 ->
  (forall j, n <= j < free_bits w (length l) -> N.testbit v (N.of_nat j) = false) ->
  exists b', AppendBits w tw b v n = Done b' /\ repr w b' (l ++ nbits n v).
Proof.
  intros Htw R Hv Hn NL. apply (AppendBits_repr w); auto.
  destruct w_cases as [C|C]; [left; exact C | right].
  destruct (Nat.le_gt_cases n (free_bits w (length l))) as [D|D]; [left; exact D | right].
  rewrite Nat.mod_small by lia. lia.
Qed.

Definition first_stray (ptr second n0 : nat) : nat := 8 * ptr + second + n0.
Definition last_byte (ptr second n0 : nat) : nat := ptr + (second + n0 - 1) / 8.

(** The bits of the last byte read that are past the requested ones and fall into the destination's current block. *)
Definition no_stray (mem : list N) (len ptr second n0 : nat) : Prop :=
  forall k, first_stray ptr second n0 <= k < 8 * (last_byte ptr second n0 + 1) ->
    len + (k - (8 * ptr + second)) < w * nblocks w (len + (8 * last_byte ptr second n0 - (8 * ptr + second))) ->
    sbit (stream mem) k = false.

Lemma byte_lt mem p : Forall (fun x => (x < 256)%N) mem -> (nth p mem 0 < 256)%N.
Proof. intros H. apply (Forall_nth_default (fun x => x < 256)%N); [exact H | lia]. Qed.

Lemma byte_high x j : (x < 256)%N -> 8 <= j -> N.testbit x (N.of_nat j) = false.
Proof. intros H Hj. apply (proj1 (lt_pow2_bits x 8)); [exact H | lia]. Qed.

Lemma Write_repr mem b l ptr second n0 : repr w b l -> Forall (fun x => (x < 256)%N) mem ->
  second < 8 -> 0 < second + n0 -> 8 * ptr + second + n0 <= 8 * length mem ->
  no_stray mem (length l) ptr second n0 ->
  exists b' p', Write w mem b (ptr, second) n0 = Done (b', (p', (second + n0) mod 8)) /\
    8 * p' + (second + n0) mod 8 = 8 * ptr + second + n0 /\
    repr w b' (l ++ slice (stream mem) (8 * ptr + second) n0).
Proof.
  intros R HM Hs Ht HR NS. pose proof w_ge8 as W8. unfold Write.
  destruct (Nat.ltb_spec second 8); [|lia]. cbn [assert bind].
  set (total := second + n0) in *. destruct (Nat.eqb_spec total 0) as [|Ht0]; [lia|].
  set (start := 8 * ptr + second) in *.
  set (e := ptr + (total - 1) / 8).
  assert (He : 8 * e < start + n0 /\ start + n0 <= 8 * (e + 1) /\ ptr <= e).
  { pose proof (Nat.div_mod (total - 1) 8 ltac:(lia)). pose proof (Nat.mod_upper_bound (total - 1) 8 ltac:(lia)).
    unfold e, start. lia. }
  destruct He as (He1 & He2 & He3).
  assert (HeL : e < length mem) by lia.
  assert (NSb : forall k, start + n0 <= k < 8 * (e + 1) -> length l + (k - start) < w * nblocks w (length l + (8 * e - start)) ->
     sbit (stream mem) k = false) by exact NS.
  clear NS.
  (* the first, partial byte *)
  assert (FIRST : exists b1, (if negb (second =? 0) then
       byte <- vget mem ptr ;;
       v <- shr w (trunc w (N.land byte (N.shiftl (N.ones (N.of_nat (8 - second))) (N.of_nat second)))) second ;;
       b' <- AppendBits w (pw w) b v (Nat.min n0 (8 - second)) ;;
       Done (b', ptr + 1, n0 - Nat.min n0 (8 - second))
     else Done (b, ptr, n0)) =
     Done (b1, (if second =? 0 then ptr else ptr + 1), n0 - Nat.min n0 (8 * (if second =? 0 then ptr else ptr + 1) - start)) /\
     repr w b1 (l ++ slice (stream mem) start (Nat.min n0 (8 * (if second =? 0 then ptr else ptr + 1) - start)))).
  { destruct (Nat.eqb_spec second 0) as [Z|Z]; cbn [negb].
    - replace (8 * ptr - start) with 0 by lia. rewrite Nat.min_0_r, Nat.sub_0_r. exists b. split; [reflexivity|].
      unfold slice. simpl. now rewrite app_nil_r.
    - rewrite (vget_done _ _ 0%N) by lia. cbn [bind]. rewrite (shr_done w) by lia. cbn [bind].
      replace (8 * (ptr + 1) - start) with (8 - second) by lia.
      set (rc := Nat.min n0 (8 - second)).
      set (v := N.shiftr _ _).
      assert (VB : forall j, N.testbit v (N.of_nat j) = if j <? 8 - second then sbit (stream mem) (start + j) else false).
      { intros j. unfold v. rewrite N.shiftr_spec', (trunc_bits w), N.land_spec, shiftl_bits.
        destruct (Nat.ltb_spec j (8 - second)) as [J|J].
        - replace (N.of_nat j + N.of_nat second)%N with (N.of_nat (j + second)) by lia.
          destruct (N.ltb_spec (N.of_nat (j + second)) (N.of_nat w)); [|lia]. cbn [andb].
          destruct (N.leb_spec (N.of_nat second) (N.of_nat (j + second))); [|lia]. cbn [andb].
          rewrite N.ones_spec_low by lia. rewrite andb_true_r. rewrite <- stream_at by lia. f_equal. lia.
        - replace (N.of_nat j + N.of_nat second)%N with (N.of_nat (j + second)) by lia.
          rewrite (byte_high _ (j + second)); [now rewrite andb_false_r | now apply byte_lt | lia]. }
      destruct (append_byte (pw w) b l v rc) as (b' & E & R').
      + unfold pw. lia.
      + exact R.
      + apply lt_pow2_bits. intros i Hi. replace i with (N.of_nat (N.to_nat i)) by lia. rewrite VB.
        destruct (Nat.ltb_spec (N.to_nat i) (8 - second)); [unfold pw in Hi; lia | reflexivity].
      + unfold rc; lia.
      + intros j [J1 J2]. rewrite VB. destruct (Nat.ltb_spec j (8 - second)) as [J|J]; [|reflexivity].
        assert (e = ptr) by lia. apply NSb; [lia|]. replace (8 * e - start) with 0 by lia. rewrite Nat.add_0_r.
        unfold free_bits in J2. lia.
      + rewrite E. cbn [bind]. exists b'. split; [reflexivity|]. fold rc.
        replace (slice (stream mem) start rc) with (nbits rc v); [exact R'|].
        unfold nbits, slice. apply map_ext_in. intros i Hi. apply in_seq in Hi. rewrite VB.
        destruct (Nat.ltb_spec i (8 - second)); [reflexivity | lia]. }
  destruct FIRST as (b1 & E1 & R1). rewrite E1. cbn [bind]. clear E1.
  set (p0 := if second =? 0 then ptr else ptr + 1) in *.
  assert (Hp0 : start <= 8 * p0 /\ p0 <= e + 1) by (unfold p0; destruct (Nat.eqb_spec second 0); lia).
  destruct Hp0 as [Hp1 Hp2].
  destruct (foreach_range (fun q '(b, n) => n = n0 - Nat.min n0 (8 * q - start) /\ start <= 8 * q /\
      repr w b (l ++ slice (stream mem) start (Nat.min n0 (8 * q - start))))
    (fun '(b, n) p => byte <- vget mem p ;; b' <- AppendBits w 8 b byte (Nat.min n 8) ;; Done (b', n - Nat.min n 8))
    p0 (e + 1) (b1, n0 - Nat.min n0 (8 * p0 - start))) as ((b2 & n2) & E2 & N2 & _ & R2).
  - exact Hp2.
  - auto.
  - intros q (bq & n) Hq (A1 & A2 & A3). rewrite (vget_done _ _ 0%N) by lia. cbn [bind].
    assert (M : Nat.min n0 (8 * q - start) = 8 * q - start) by lia. rewrite M in A1, A3.
    destruct (append_byte 8 bq (l ++ slice (stream mem) start (8 * q - start)) (nth q mem 0%N) (Nat.min n 8)) as (b' & E & R').
    + lia.
    + exact A3.
    + now apply byte_lt.
    + lia.
    + rewrite app_length, slice_length. intros j [J1 J2].
      destruct (Nat.le_gt_cases 8 j) as [J|J]; [apply byte_high; [now apply byte_lt | exact J]|].
      assert (q = e) by lia. subst q. rewrite <- stream_at by exact J. apply NSb; [lia|].
      unfold free_bits in J2. lia.
    + rewrite E. cbn [bind]. eexists. split; [reflexivity|]. split; [lia|]. split; [lia|].
      rewrite nbits_byte in R' by lia.
      rewrite <- app_assoc in R'. replace (8 * q) with (start + (8 * q - start)) in R' at 2 by lia.
      rewrite <- slice_app in R'. replace (Nat.min n0 (8 * (q + 1) - start)) with (8 * q - start + Nat.min n 8) by lia. exact R'.
  - rewrite E2. cbn [bind]. exists b2. eexists. split; [reflexivity|].
    pose proof (Nat.div_mod (total - 1) 8 ltac:(lia)) as D1. pose proof (Nat.mod_upper_bound (total - 1) 8 ltac:(lia)) as D2.
    pose proof (Nat.div_mod total 8 ltac:(lia)) as D3. pose proof (Nat.mod_upper_bound total 8 ltac:(lia)) as D4.
    split.
    + fold e. destruct (Nat.eqb_spec (total mod 8) 0); unfold e, start, total in *; lia.
    + replace n0 with (Nat.min n0 (8 * (e + 1) - start)) at 1 by lia. exact R2.
Qed.

(** Whole bytes never leave a stray bit. *)
Lemma no_stray_bytes mem len ptr second n0 : 0 < second + n0 -> (second + n0) mod 8 = 0 -> no_stray mem len ptr second n0.
Proof.
  intros H0 H k Hk. unfold first_stray, last_byte in Hk.
  pose proof (Nat.div_mod (second + n0 - 1) 8 ltac:(lia)). pose proof (Nat.mod_upper_bound (second + n0 - 1) 8 ltac:(lia)).
  pose proof (Nat.div_mod (second + n0) 8 ltac:(lia)). lia.
Qed.

(** Nor does a last byte that starts a fresh block of the destination. *)
Lemma no_stray_aligned mem len ptr second n0 :
  (len + (8 * last_byte ptr second n0 - (8 * ptr + second))) mod w = 0 -> 8 * ptr + second <= 8 * last_byte ptr second n0 ->
  no_stray mem len ptr second n0.
Proof.
  intros H Hs k Hk Hd. exfalso. destruct (nblocks_cases w (len + (8 * last_byte ptr second n0 - (8 * ptr + second)))) as [(A & B & C)|(A & _)]; [|lia].
  rewrite C in Hd. unfold first_stray, last_byte in *.
  pose proof (Nat.div_mod (second + n0 - 1) 8 ltac:(lia)). pose proof (Nat.mod_upper_bound (second + n0 - 1) 8 ltac:(lia)).
  destruct (Nat.eq_dec (second + n0) 0); lia.
Qed.

End W.
