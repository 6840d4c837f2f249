(** Property C156: shifts, reversal, complement and counting of bitsets. *)
From Verif Require Import Base BitsetModel BitsetSpec BitsetBits BitsetProofs BitsetFind BitsetShift BitsetLogic PropBitset BitsetExprSpec BitsetExprModel PropBitsetExpr.
Open Scope nat_scope.

Definition op_of (w : nat) (f : bool -> bool -> bool) (op : bitset -> bitset -> outcome bitset) : Prop := (f = andb /\ op = op_and w) \/ (f = orb /\ op = op_or w) \/ (f = xorb /\ op = op_xor w).
Lemma op_false w f op : op_of w f op -> f false false = false.
Proof. intros [(-> & _)|[(-> & _)|(-> & _)]]; reflexivity. Qed.
Lemma op_repr w f op a b la lb : width w -> op_of w f op -> repr w a la -> repr w b lb -> exists r, op a b = Done r /\ repr w r (s_zip f la lb).
Proof. intros Hw [(-> & ->)|[(-> & ->)|(-> & ->)]] Ra Rb; [now apply op_and_repr | now apply op_or_repr | now apply op_xor_repr]. Qed.
Lemma sbit_rev l i : i < length l -> sbit (rev l) i = sbit l (length l - 1 - i).
Proof. intros H. unfold sbit. rewrite rev_nth by exact H. f_equal. lia. Qed.

(** ** Shifts *)
Theorem C156_shifts_add : forall w, width w -> forall b l j k, repr w b l ->
  (x <- ShiftLeft w b j ;; ShiftLeft w x k) = ShiftLeft w b (j + k) /\ (x <- ShiftRight w b j ;; ShiftRight w x k) = ShiftRight w b (j + k) /\
  ShiftLeft w b 0 = Done b /\ ShiftRight w b 0 = Done b.
Proof.
  intros w Hw b l j k R. split; [|split; [|split]].
  - destruct (ShiftLeft_repr w b l j R) as (x & -> & Rx). cbn [bind]. destruct (ShiftLeft_repr w x _ k Rx) as (y & -> & Ry). destruct (ShiftLeft_repr w b l (j + k) R) as (z & -> & Rz). f_equal. apply (repr_inj w y z (s_shl l (j + k))); [|exact Rz].
    replace (s_shl l (j + k)) with (s_shl (s_shl l j) k); [exact Ry|]. apply same_bits; [now rewrite !s_shl_length|]. intros i Hi. rewrite !s_shl_length in Hi. rewrite !sbit_shl, s_shl_length. replace (i <? length l) with true by lia.
    destruct (Nat.ltb_spec i k), (Nat.ltb_spec i (j + k)); [reflexivity|lia|..]; replace (i - k <? length l) with true by lia.
    + now replace (i - k <? j) with true by lia.
    + replace (i - k <? j) with false by lia. f_equal. lia.
  - destruct (ShiftRight_repr w b l j R) as (x & -> & Rx). cbn [bind]. destruct (ShiftRight_repr w x _ k Rx) as (y & -> & Ry). destruct (ShiftRight_repr w b l (j + k) R) as (z & -> & Rz). f_equal. apply (repr_inj w y z (s_shr l (j + k))); [|exact Rz].
    replace (s_shr l (j + k)) with (s_shr (s_shr l j) k); [exact Ry|]. apply same_bits; [now rewrite !s_shr_length|]. intros i Hi. rewrite !sbit_shr. f_equal. lia.
  - destruct (ShiftLeft_repr w b l 0 R) as (z & -> & Rz). f_equal. apply (repr_inj w z b l); [|exact R]. replace (s_shl l 0) with l in Rz; [exact Rz|]. unfold s_shl. cbn [repeat app]. now rewrite firstn_all.
  - destruct (ShiftRight_repr w b l 0 R) as (z & -> & Rz). f_equal. apply (repr_inj w z b l); [|exact R]. replace (s_shr l 0) with l in Rz; [exact Rz|]. unfold s_shr. cbn [skipn Nat.min repeat]. now rewrite app_nil_r.
Qed.
Print Assumptions C156_shifts_add.
(** There and back: the bits that fell off are lost, the others are where they were. *)
Theorem C156_there_and_back : forall w, width w -> forall b l k, repr w b l ->
  (exists x y, ShiftLeft w b k = Done x /\ ShiftRight w x k = Done y /\ GetSize y = length l /\ forall i, i < length l -> Test w y i = Done (if i + k <? length l then nth i l false else false)) /\
  (exists x y, ShiftRight w b k = Done x /\ ShiftLeft w x k = Done y /\ GetSize y = length l /\ forall i, i < length l -> Test w y i = Done (if i <? k then false else nth i l false)).
Proof.
  intros w Hw b l k R. split.
  - destruct (ShiftLeft_repr w b l k R) as (x & E & Rx). destruct (ShiftRight_repr w x _ k Rx) as (y & E' & Ry). exists x, y. split; [exact E|]. split; [exact E'|]. split; [rewrite <- (s_shl_length l k), <- (s_shr_length _ k); apply Ry|].
    intros i Hi. rewrite (Test_repr w y _ i Ry), s_shr_length, s_shl_length. replace (i <? length l) with true by lia. rewrite sbit_shr, sbit_shl. destruct (i + k <? length l); [|reflexivity]. replace (i + k <? k) with false by lia. now replace (i + k - k) with i by lia.
  - destruct (ShiftRight_repr w b l k R) as (x & E & Rx). destruct (ShiftLeft_repr w x _ k Rx) as (y & E' & Ry). exists x, y. split; [exact E|]. split; [exact E'|]. split; [rewrite <- (s_shr_length l k), <- (s_shl_length _ k); apply Ry|].
    intros i Hi. rewrite (Test_repr w y _ i Ry), s_shl_length, s_shr_length. replace (i <? length l) with true by lia. rewrite sbit_shl, sbit_shr, s_shr_length. replace (i <? length l) with true by lia. destruct (Nat.ltb_spec i k) as [L|L]; [reflexivity|]. now replace (i - k + k) with i by lia.
Qed.
Print Assumptions C156_there_and_back.
(** Reversal turns one shift into the other. *)
Theorem C156_reverse_shift : forall w, width w -> forall b l k, repr w b l ->
  (x <- ShiftLeft w b k ;; Reverse w x) = (x <- Reverse w b ;; ShiftRight w x k).
Proof.
  intros w Hw b l k R. destruct (ShiftLeft_repr w b l k R) as (x & -> & Rx). cbn [bind]. destruct (Reverse_repr w x _ Rx) as (y & -> & Ry). destruct (Reverse_repr w b l R) as (u & -> & Ru). cbn [bind]. destruct (ShiftRight_repr w u _ k Ru) as (v & -> & Rv). f_equal. apply (repr_inj w y v (s_shr (rev l) k)); [|exact Rv].
  replace (s_shr (rev l) k) with (rev (s_shl l k)); [exact Ry|]. apply same_bits; [now rewrite rev_length, s_shl_length, s_shr_length, rev_length|]. intros i Hi. rewrite rev_length, s_shl_length in Hi. rewrite sbit_rev by (rewrite s_shl_length; exact Hi). rewrite s_shl_length, sbit_shl, sbit_shr. replace (length l - 1 - i <? length l) with true by lia.
  destruct (Nat.ltb_spec (length l - 1 - i) k) as [L|L]; [symmetry; apply sbit_high; rewrite rev_length; lia|]. rewrite sbit_rev by lia. f_equal. lia.
Qed.
Print Assumptions C156_reverse_shift.
(** Shifts to the right distribute over &, | and ^ whatever the sizes, shifts to the left for equal sizes. *)
Theorem C156_shift_right_distributes : forall w f op, width w -> op_of w f op -> forall a b la lb k, repr w a la -> repr w b lb ->
  (x <- op a b ;; ShiftRight w x k) = (x <- ShiftRight w a k ;; y <- ShiftRight w b k ;; op x y).
Proof.
  intros w f op Hw HO a b la lb k Ra Rb. destruct (op_repr w f op a b la lb Hw HO Ra Rb) as (x & -> & Rx). cbn [bind]. destruct (ShiftRight_repr w x _ k Rx) as (y & -> & Ry). destruct (ShiftRight_repr w a la k Ra) as (u & -> & Ru). destruct (ShiftRight_repr w b lb k Rb) as (v & -> & Rv). cbn [bind].
  destruct (op_repr w f op u v _ _ Hw HO Ru Rv) as (z & -> & Rz). f_equal. apply (repr_inj w y z (s_zip f (s_shr la k) (s_shr lb k))); [|exact Rz]. replace (s_zip f (s_shr la k) (s_shr lb k)) with (s_shr (s_zip f la lb) k); [exact Ry|].
  apply same_bits; [now rewrite s_shr_length, !s_zip_length, !s_shr_length|]. intros i _. rewrite sbit_shr, !sbit_zip, !sbit_shr by exact (op_false w f op HO). reflexivity.
Qed.
Print Assumptions C156_shift_right_distributes.
Theorem C156_shift_left_distributes_equal_sizes : forall w f op, width w -> op_of w f op -> forall a b la lb k, repr w a la -> repr w b lb -> length la = length lb ->
  (x <- op a b ;; ShiftLeft w x k) = (x <- ShiftLeft w a k ;; y <- ShiftLeft w b k ;; op x y).
Proof.
  intros w f op Hw HO a b la lb k Ra Rb HL. destruct (op_repr w f op a b la lb Hw HO Ra Rb) as (x & -> & Rx). cbn [bind]. destruct (ShiftLeft_repr w x _ k Rx) as (y & -> & Ry). destruct (ShiftLeft_repr w a la k Ra) as (u & -> & Ru). destruct (ShiftLeft_repr w b lb k Rb) as (v & -> & Rv). cbn [bind].
  destruct (op_repr w f op u v _ _ Hw HO Ru Rv) as (z & -> & Rz). f_equal. apply (repr_inj w y z (s_zip f (s_shl la k) (s_shl lb k))); [|exact Rz]. replace (s_zip f (s_shl la k) (s_shl lb k)) with (s_shl (s_zip f la lb) k); [exact Ry|].
  assert (F0 := op_false w f op HO). apply same_bits; [now rewrite s_shl_length, !s_zip_length, !s_shl_length|]. intros i _. rewrite sbit_shl, !sbit_zip, !sbit_shl, s_zip_length, HL, Nat.max_id by exact F0. destruct (i <? length lb); [|now rewrite F0]. destruct (i <? k); [now rewrite F0|]. reflexivity.
Qed.
Print Assumptions C156_shift_left_distributes_equal_sizes.
(** Of different sizes: a bit of the shorter one falls off when it is shifted alone. *)
Theorem C156_shift_left_distributes_refuted : forall w, width w -> forall a b la lb k, repr w a la -> repr w b lb -> 0 < k -> length la + k <= length lb -> sbit la (length la - 1) = true -> sbit lb (length la - 1) = false ->
  exists x y p q r, op_or w a b = Done x /\ ShiftLeft w x k = Done y /\ ShiftLeft w a k = Done p /\ ShiftLeft w b k = Done q /\ op_or w p q = Done r /\ Test w y (length la - 1 + k) = Done true /\ Test w r (length la - 1 + k) = Done false.
Proof.
  intros w Hw a b la lb k Ra Rb Hk HL Ta Tb'. assert (L0 : 0 < length la) by (destruct la; [cbn in Ta; discriminate | cbn; lia]).
  destruct (op_or_repr w a b la lb Hw Ra Rb) as (x & Ex & Rx). destruct (ShiftLeft_repr w x _ k Rx) as (y & Ey & Ry). destruct (ShiftLeft_repr w a la k Ra) as (p & Ep & Rp). destruct (ShiftLeft_repr w b lb k Rb) as (q & Eq & Rq). destruct (op_or_repr w p q _ _ Hw Rp Rq) as (r & Er & Rr).
  exists x, y, p, q, r. repeat (split; [assumption|]). split.
  - rewrite (Test_repr w y _ _ Ry), s_shl_length, s_zip_length. replace (length la - 1 + k <? Nat.max (length la) (length lb)) with true by lia. rewrite sbit_shl, s_zip_length. replace (length la - 1 + k <? Nat.max (length la) (length lb)) with true by lia. replace (length la - 1 + k <? k) with false by lia. replace (length la - 1 + k - k) with (length la - 1) by lia. rewrite sbit_zip by reflexivity. now rewrite Ta.
  - rewrite (Test_repr w r _ _ Rr), s_zip_length, !s_shl_length. replace (length la - 1 + k <? Nat.max (length la) (length lb)) with true by lia. rewrite sbit_zip, !sbit_shl by reflexivity. replace (length la - 1 + k <? length la) with false by lia. replace (length la - 1 + k <? length lb) with true by lia. replace (length la - 1 + k <? k) with false by lia. replace (length la - 1 + k - k) with (length la - 1) by lia. now rewrite Tb'.
Qed.
Print Assumptions C156_shift_left_distributes_refuted.

(** ** Counting *)
Definition cnt (p : nat -> bool) (n : nat) : nat := length (filter p (seq 0 n)).
Lemma cnt_S p n : cnt p (S n) = cnt p n + (if p n then 1 else 0).
Proof. unfold cnt. rewrite seq_S, filter_app, app_length. cbn [filter Nat.add]. now destruct (p n). Qed.
Lemma cnt_ext p q n : (forall i, i < n -> p i = q i) -> cnt p n = cnt q n.
Proof. induction n as [|n IH]; intros H; [reflexivity|]. rewrite !cnt_S, H, IH by (auto; lia). reflexivity. Qed.
Lemma cnt_occ l : count_occ Bool.bool_dec l true = cnt (sbit l) (length l).
Proof.
  induction l as [|b l IH] using rev_ind; [reflexivity|]. rewrite app_length, Nat.add_1_r, cnt_S, count_occ_app, IH. f_equal.
  - apply cnt_ext. intros i Hi. unfold sbit. now rewrite app_nth1.
  - unfold sbit. rewrite app_nth2, Nat.sub_diag by lia. now destruct b.
Qed.
Lemma cnt_more l n : length l <= n -> count_occ Bool.bool_dec l true = cnt (sbit l) n.
Proof. intros H. rewrite cnt_occ. induction H as [|n H IH]; [reflexivity|]. rewrite cnt_S, IH, sbit_high by exact H. lia. Qed.
Lemma cnt_of w b l n : width w -> repr w b l -> length l <= n -> Count w b = cnt (sbit l) n.
Proof. intros Hw R H. rewrite (proj1 (C07_queries w Hw b l R)). now apply cnt_more. Qed.

Theorem C156_count : forall w, width w -> forall a b la lb, repr w a la -> repr w b lb ->
  exists x y z, op_and w a b = Done x /\ op_or w a b = Done y /\ op_xor w a b = Done z /\
    Count w y + Count w x = Count w a + Count w b /\ Count w z + 2 * Count w x = Count w a + Count w b /\ (Intersects a b = Done (0 <? Count w x)).
Proof.
  intros w Hw a b la lb Ra Rb. destruct (op_and_repr w a b la lb Hw Ra Rb) as (x & Ex & Rx). destruct (op_or_repr w a b la lb Hw Ra Rb) as (y & Ey & Ry). destruct (op_xor_repr w a b la lb Hw Ra Rb) as (z & Ez & Rz).
  exists x, y, z. repeat (split; [assumption|]). set (n := Nat.max (length la) (length lb)).
  rewrite (cnt_of w x _ n Hw Rx), (cnt_of w y _ n Hw Ry), (cnt_of w z _ n Hw Rz), (cnt_of w a _ n Hw Ra), (cnt_of w b _ n Hw Rb) by (rewrite ?s_zip_length; unfold n; lia).
  rewrite (cnt_ext (sbit (s_zip andb la lb)) (fun i => sbit la i && sbit lb i) n), (cnt_ext (sbit (s_zip orb la lb)) (fun i => sbit la i || sbit lb i) n), (cnt_ext (sbit (s_zip xorb la lb)) (fun i => xorb (sbit la i) (sbit lb i)) n) by (intros; now apply sbit_zip).
  split; [|split].
  - induction n as [|n IH]; [reflexivity|]. rewrite !cnt_S. destruct (sbit la n), (sbit lb n); cbn [andb orb]; lia.
  - induction n as [|n IH]; [reflexivity|]. rewrite !cnt_S. destruct (sbit la n), (sbit lb n); cbn [andb xorb]; lia.
  - destruct (C07_intersects w Hw a b la lb Ra Rb) as (r & -> & Hr). f_equal. apply eq_true_iff_eq. rewrite Hr, Nat.ltb_lt. unfold cnt. split.
    + intros (i & Ia & Ib). assert (Hi : i < n) by (destruct (Nat.lt_ge_cases i (length la)) as [L|L]; [unfold n; lia | rewrite nth_overflow in Ia by exact L; discriminate]). assert (In i (filter (fun i => sbit la i && sbit lb i) (seq 0 n))) as K by (apply filter_In; split; [apply in_seq; lia | unfold sbit; now rewrite Ia, Ib]).
      destruct (filter _ _); [destruct K | cbn; lia].
    + destruct (filter (fun i => sbit la i && sbit lb i) (seq 0 n)) as [|i r'] eqn:E; [cbn; lia|]. intros _. assert (K : In i (filter (fun i => sbit la i && sbit lb i) (seq 0 n))) by (rewrite E; now left). apply filter_In in K. destruct K as (_ & K). apply andb_prop in K. exists i. exact K.
Qed.
Print Assumptions C156_count.
Theorem C156_count_complement : forall w, width w -> forall a la, repr w a la -> exists x, op_not w a = Done x /\ Count w x + Count w a = GetSize a.
Proof.
  intros w Hw a la R. destruct (op_not_repr w a la Hw R) as (x & E & Rx). exists x. split; [exact E|]. rewrite (proj1 (C07_queries w Hw x _ Rx)), (proj1 (C07_queries w Hw a la R)). unfold GetSize. rewrite (proj1 R). unfold s_flip. clear. induction la as [|[|] la IH]; cbn in *; [reflexivity|lia|lia].
Qed.
Print Assumptions C156_count_complement.
Theorem C156_count_reverse : forall w, width w -> forall a la, repr w a la -> exists x, Reverse w a = Done x /\ Count w x = Count w a.
Proof.
  intros w Hw a la R. destruct (Reverse_repr w a la R) as (x & E & Rx). exists x. split; [exact E|]. rewrite (proj1 (C07_queries w Hw x _ Rx)), (proj1 (C07_queries w Hw a la R)). clear. induction la as [|b la IH]; [reflexivity|]. cbn [rev]. rewrite count_occ_app, IH. destruct b; cbn; lia.
Qed.
Print Assumptions C156_count_reverse.
(** A shift loses exactly the bits that fall off. *)
Theorem C156_count_shift : forall w, width w -> forall a la k, repr w a la -> k <= length la ->
  (exists x, ShiftRight w a k = Done x /\ Count w x + s_count (firstn k la) = Count w a) /\ (exists x, ShiftLeft w a k = Done x /\ Count w x + s_count (skipn (length la - k) la) = Count w a).
Proof.
  intros w Hw a la k R Hk. assert (Z : forall n, count_occ Bool.bool_dec (repeat false n) true = 0) by (induction n; cbn; auto). split.
  - destruct (ShiftRight_repr w a la k R) as (x & E & Rx). exists x. split; [exact E|]. rewrite (proj1 (C07_queries w Hw x _ Rx)), (proj1 (C07_queries w Hw a la R)). unfold s_count, s_shr. rewrite count_occ_app, Z. rewrite <- (firstn_skipn k la) at 3. rewrite count_occ_app. lia.
  - destruct (ShiftLeft_repr w a la k R) as (x & E & Rx). exists x. split; [exact E|]. rewrite (proj1 (C07_queries w Hw x _ Rx)), (proj1 (C07_queries w Hw a la R)). unfold s_count, s_shl. rewrite firstn_app, repeat_length, (firstn_all2 (repeat false k)) by (rewrite repeat_length; exact Hk). rewrite count_occ_app, Z.
    rewrite <- (firstn_skipn (length la - k) la) at 5. rewrite count_occ_app. lia.
Qed.
Print Assumptions C156_count_shift.

Example C156_example : (x <- ShiftLeft 8 (mkB [3; 1]%N 9) 4 ;; ShiftLeft 8 x 4) = Done (mkB [0; 1]%N 9) /\ ShiftLeft 8 (mkB [3; 1]%N 9) 8 = Done (mkB [0; 1]%N 9).
Proof. split; reflexivity. Qed.
Example C156_sizes_example : (x <- op_or 8 (mkB [4]%N 3) (mkB [0]%N 5) ;; ShiftLeft 8 x 1) = Done (mkB [8]%N 5) /\
  (x <- ShiftLeft 8 (mkB [4]%N 3) 1 ;; y <- ShiftLeft 8 (mkB [0]%N 5) 1 ;; op_or 8 x y) = Done (mkB [0]%N 5).
Proof. split; reflexivity. Qed.
