(** Property C119: the bit functions as compiled by MSVC. *)
From Verif Require Import Base CInt MathModel MathProofs MathProofs2 SafeCastModel MsvcModel.
Open Scope Z_scope.

(** What the functions should give: the number of one bits among the bits of the type, and one plus the position of the lowest or the highest, 0 for 0. *)
Definition ones (t : ity) (v : Z) : nat := length (filter (fun i => Z.testbit v (Z.of_nat i)) (seq 0 (Z.to_nat (wid t)))).
Definition lowest_one (t : ity) (v r : Z) : Prop :=
  (r = 0 /\ v = 0) \/ (1 <= r <= wid t /\ Z.testbit v (r - 1) = true /\ forall i, 0 <= i < r - 1 -> Z.testbit v i = false).
Definition highest_one (t : ity) (v r : Z) : Prop :=
  (r = 0 /\ v = 0) \/ (1 <= r <= wid t /\ Z.testbit v (r - 1) = true /\ forall i, r <= i < wid t -> Z.testbit v i = false).
Definition is_x86 (a : march) : Prop := a = X86 \/ a = X64.
Definition is_32bit (a : march) : Prop := a = X86 \/ a = Arm.

(** ** Lemmas *)
Lemma popcnt_ones w v : 0 < w -> popcnt w v = ones_count (Z.to_nat w) v.
Proof.
  intros H. unfold popcnt. rewrite cast_unsigned_mod by reflexivity. cbn [wid].
  rewrite (popcount_Z (Z.to_nat w)) by (rewrite Z2Nat.id by lia; apply Z.mod_pos_bound; lia).
  unfold ones_count. f_equal. apply filter_ext_in. intros i I. apply in_seq in I. apply Z.mod_pow2_bits_low. lia.
Qed.
Lemma high_ones n m v : length (filter (fun i => Z.testbit v (Z.of_nat i)) (seq n m)) = ones_count m (Z.shiftr v (Z.of_nat n)).
Proof.
  unfold ones_count. replace (seq n m) with (map (fun i => (i + n)%nat) (seq 0 m)).
  - rewrite filter_map_length. f_equal. apply filter_ext. intros i. rewrite Z.shiftr_spec by lia. f_equal. lia.
  - replace (seq n m) with (seq (n + 0) m) by (f_equal; lia). generalize 0%nat as k. induction m as [|m IH]; intros k; [reflexivity|]. cbn [seq map]. rewrite IH. f_equal; [lia|f_equal; lia].
Qed.
Lemma ones_negative n m v : - 2 ^ Z.of_nat n <= v < 0 -> ones_count (n + m) v = (ones_count n v + m)%nat.
Proof.
  intros H. rewrite ones_count_split. f_equal. rewrite filter_all; [apply seq_length|]. intros i I. apply in_seq in I.
  replace v with ((v + 2 ^ Z.of_nat n) - 2 ^ Z.of_nat n) by lia. rewrite neg_bits by lia. destruct (Z.ltb_spec (Z.of_nat i) (Z.of_nat n)); [lia|reflexivity].
Qed.
Lemma forward_case w v : 0 < w -> match BitScanForward w v with
  | Some i => 0 <= i < w /\ Z.testbit v i = true /\ forall j, 0 <= j < i -> Z.testbit v j = false
  | None => forall j, 0 <= j < w -> Z.testbit v j = false
  end.
Proof.
  intros H. unfold BitScanForward. rewrite cast_unsigned_mod by reflexivity. cbn [wid].
  pose proof (Z.mod_pos_bound v (2 ^ w) ltac:(lia)) as B.
  assert (L : forall i, 0 <= i < w -> Z.testbit (v mod 2 ^ w) i = Z.testbit v i) by (intros; apply Z.mod_pow2_bits_low; lia).
  destruct (v mod 2 ^ w) as [|p|p] eqn:E; [| |lia].
  - intros i I. rewrite <- L, Z.bits_0 by assumption. reflexivity.
  - destruct (ffs_spec (Z.pos p) ltac:(lia)) as (k & K & T & F). cbn [builtin_ffs] in K. rewrite K.
    replace (Z.of_nat (S k) - 1) with (Z.of_nat k) by lia.
    assert (Z.of_nat k < w). { destruct (Z.lt_ge_cases (Z.of_nat k) w) as [C|C]; [exact C|]. exfalso. rewrite (pow2_high (Z.pos p) w) in T by lia. discriminate. }
    split; [lia|]. split; [now rewrite <- L by lia | intros i I; rewrite <- L by lia; apply F; lia].
Qed.
Lemma reverse_case w v : 0 < w -> match BitScanReverse w v with
  | Some i => 0 <= i < w /\ Z.testbit v i = true /\ forall j, i < j < w -> Z.testbit v j = false
  | None => forall j, 0 <= j < w -> Z.testbit v j = false
  end.
Proof.
  intros H. unfold BitScanReverse. rewrite cast_unsigned_mod by reflexivity. cbn [wid].
  pose proof (Z.mod_pos_bound v (2 ^ w) ltac:(lia)) as B.
  assert (L : forall i, 0 <= i < w -> Z.testbit (v mod 2 ^ w) i = Z.testbit v i) by (intros; apply Z.mod_pow2_bits_low; lia).
  destruct (v mod 2 ^ w) as [|p|p] eqn:E; [| |lia].
  - intros i I. rewrite <- L, Z.bits_0 by assumption. reflexivity.
  - pose proof (Z.log2_nonneg (Z.pos p)). assert (Z.log2 (Z.pos p) < w) by (apply Z.log2_lt_pow2; lia).
    split; [lia|]. split; [rewrite <- L by lia; apply Z.bit_log2; lia | intros j J; rewrite <- L by lia; apply Z.bits_above_log2; lia].
Qed.
Lemma forward_spec w v : 0 < w -> is_first_bit w v (match BitScanForward w v with Some i => i + 1 | None => 0 end).
Proof.
  intros H. pose proof (forward_case w v H) as C. destruct (BitScanForward w v) as [i|]; [right | left; auto].
  replace (i + 1 - 1) with i by lia. split; [lia | apply C].
Qed.
Lemma reverse_spec w v : 0 < w -> is_last_bit w v (match BitScanReverse w v with Some i => i + 1 | None => 0 end).
Proof.
  intros H. pose proof (reverse_case w v H) as C. destruct (BitScanReverse w v) as [i|]; [right | left; auto].
  replace (i + 1 - 1) with i by lia. split; [lia|]. split; [apply C|]. intros j J. apply C. lia.
Qed.
Lemma lowest_of t v r w : In t int_types -> in_range t v = true -> wid t <= w -> is_first_bit w v r -> lowest_one t v r.
Proof.
  intros Ht Hv W [(A & B)|(A & B & C)].
  - left. split; [exact A|]. apply (zero_low t); trivial. intros i I. apply B. lia.
  - right. destruct (Z.lt_ge_cases (wid t) r) as [D|D]; [exfalso | split; [lia|split; assumption]].
    assert (v = 0) as -> by (apply (zero_low t); trivial; intros i I; apply C; lia). rewrite Z.bits_0 in B. discriminate.
Qed.
Lemma highest_of t v r : In t int_types -> in_range t v = true -> is_last_bit (wid t) v r -> highest_one t v r.
Proof.
  intros Ht Hv [(A & B)|S]; [left | right; exact S]. split; [exact A|]. now apply (zero_low t).
Qed.
Lemma highest_nonneg t v r w : In t int_types -> 0 <= v <= tmax t -> wid t <= w -> is_last_bit w v r -> highest_one t v r.
Proof.
  intros Ht Hv W S. assert (R : in_range t v = true) by (unfold in_range; each_type Ht; ranges; lia).
  assert (B : 0 <= v < 2 ^ wid t) by (each_type Ht; ranges; lia). apply highest_of; trivial.
  destruct S as [(A & C)|(A & C & D)]; [left; split; [exact A|]; intros i I; apply C; lia | right].
  destruct (Z.lt_ge_cases (wid t) r) as [E|E]; [exfalso; rewrite (pow2_high v (wid t)) in C by lia; discriminate | split; [lia|split; [exact C|]]].
  intros i I. apply D. lia.
Qed.
Lemma to_ulong_nonneg debug t v : In t [u64; i64] -> 0 <= v < 2 ^ 32 -> to_ulong debug t v = Done v.
Proof.
  intros Ht Hv. unfold to_ulong, SafeCast, safe_cast_arith, check_integral.
  assert (C : forall s, In s [u64; i64; u32] -> cast s v = v) by (intros s Hs; apply cast_id; cbn [In] in Hs; intuition subst; cbn; unfold in_range, tmin, tmax; cbn [sgn wid u64 i64 u32]; lia).
  destruct debug; cbn [andb by_value conv is_signed sizeof lowest max].
  - cbn [In] in Ht. destruct Ht as [<-|[<-|[]]]; cbn [sgn wid u64 i64 u32 Bool.eqb andb orb negb Z.gtb Z.compare Pos.compare Pos.compare_cont conv];
      rewrite !C by (cbn; tauto); unfold assert;
      change (cast i64 (tmin u32)) with 0; change (cast u64 (tmin u32)) with 0; change (cast u32 (tmin u32)) with 0; change (cast u64 (tmax u32)) with (2 ^ 32 - 1); change (cast u32 (tmax u32)) with (2 ^ 32 - 1);
      rewrite ?Z.geb_leb, ?(proj2 (Z.leb_le 0 v)), ?(proj2 (Z.leb_le v (2 ^ 32 - 1))) by lia; reflexivity.
  - cbn [bind]. rewrite C by (cbn; tauto). reflexivity.
Qed.
Lemma to_ulong_release t v : to_ulong false t v = Done (v mod 2 ^ 32).
Proof. reflexivity. Qed.
Lemma to_ulong_negative v : v < 0 -> to_ulong true i64 v = Fault FAssert.
Proof.
  intros H. unfold to_ulong, SafeCast, safe_cast_arith, check_integral. cbn [andb by_value is_signed sgn i64 u32 orb]. unfold assert at 1.
  replace (v >=? 0) with false; [reflexivity|]. symmetry. rewrite Z.geb_leb. apply Z.leb_gt. exact H.
Qed.
Lemma land_low v : Z.land v 0xFFFFFFFF = v mod 2 ^ 32.
Proof. change 0xFFFFFFFF with (Z.ones 32). apply Z.land_ones. lia. Qed.
Lemma halves v j : (0 <= j < 32 -> Z.testbit (v mod 2 ^ 32) j = Z.testbit v j) /\ (0 <= j -> Z.testbit (Z.shiftr v 32) j = Z.testbit v (j + 32)).
Proof. split; intros H; [apply Z.mod_pow2_bits_low; lia | apply Z.shiftr_spec; lia]. Qed.
(** The two halves joined, the upper one given by any value [h] with the same 32 bits. *)
Lemma forward_join v h : h mod 2 ^ 32 = Z.shiftr v 32 mod 2 ^ 32 ->
  is_first_bit 64 v (match BitScanForward 32 (v mod 2 ^ 32) with Some i => i + 1 | None => match BitScanForward 32 h with Some i => i + 33 | None => 0 end end).
Proof.
  intros E. assert (BitScanForward 32 h = BitScanForward 32 (Z.shiftr v 32)) as -> by (unfold BitScanForward; rewrite !cast_unsigned_mod by reflexivity; cbn [wid]; now rewrite E).
  pose proof (forward_case 32 (v mod 2 ^ 32) ltac:(lia)) as L. pose proof (forward_case 32 (Z.shiftr v 32) ltac:(lia)) as H.
  destruct (BitScanForward 32 (v mod 2 ^ 32)) as [i|].
  - right. destruct L as (L1 & L2 & L3). replace (i + 1 - 1) with i by lia. split; [lia|]. split; [rewrite <- (proj1 (halves v i)) by lia; exact L2|].
    intros j J. rewrite <- (proj1 (halves v j)) by lia. exact (L3 j J).
  - assert (Z32 : forall j, 0 <= j < 32 -> Z.testbit v j = false) by (intros j J; rewrite <- (proj1 (halves v j)) by lia; exact (L j J)).
    destruct (BitScanForward 32 (Z.shiftr v 32)) as [i|].
    + right. destruct H as (H1 & H2 & H3). replace (i + 33 - 1) with (i + 32) by lia. split; [lia|]. split; [rewrite <- (proj2 (halves v i)) by lia; exact H2|].
      intros j J. destruct (Z.lt_ge_cases j 32) as [K|K]; [apply Z32; lia|]. replace j with ((j - 32) + 32) by lia. rewrite <- (proj2 (halves v (j - 32))) by lia. apply H3. lia.
    + left. split; [reflexivity|]. intros j J. destruct (Z.lt_ge_cases j 32) as [K|K]; [apply Z32; lia|].
      replace j with ((j - 32) + 32) by lia. rewrite <- (proj2 (halves v (j - 32))) by lia. apply H. lia.
Qed.
Lemma reverse_join v h : h mod 2 ^ 32 = Z.shiftr v 32 mod 2 ^ 32 ->
  is_last_bit 64 v (match BitScanReverse 32 h with Some i => i + 33 | None => match BitScanReverse 32 (v mod 2 ^ 32) with Some i => i + 1 | None => 0 end end).
Proof.
  intros E. assert (BitScanReverse 32 h = BitScanReverse 32 (Z.shiftr v 32)) as -> by (unfold BitScanReverse; rewrite !cast_unsigned_mod by reflexivity; cbn [wid]; now rewrite E).
  pose proof (reverse_case 32 (v mod 2 ^ 32) ltac:(lia)) as L. pose proof (reverse_case 32 (Z.shiftr v 32) ltac:(lia)) as H.
  destruct (BitScanReverse 32 (Z.shiftr v 32)) as [i|].
  - right. destruct H as (H1 & H2 & H3). replace (i + 33 - 1) with (i + 32) by lia. split; [lia|]. split; [rewrite <- (proj2 (halves v i)) by lia; exact H2|].
    intros j J. replace j with ((j - 32) + 32) by lia. rewrite <- (proj2 (halves v (j - 32))) by lia. apply H3. lia.
  - assert (Z32 : forall j, 32 <= j < 64 -> Z.testbit v j = false) by (intros j J; replace j with ((j - 32) + 32) by lia; rewrite <- (proj2 (halves v (j - 32))) by lia; apply H; lia).
    destruct (BitScanReverse 32 (v mod 2 ^ 32)) as [i|].
    + right. destruct L as (L1 & L2 & L3). replace (i + 1 - 1) with i by lia. split; [lia|]. split; [rewrite <- (proj1 (halves v i)) by lia; exact L2|].
      intros j J. destruct (Z.lt_ge_cases j 32) as [K|K]; [rewrite <- (proj1 (halves v j)) by lia; apply L3; lia | apply Z32; lia].
    + left. split; [reflexivity|]. intros j J. destruct (Z.lt_ge_cases j 32) as [K|K]; [rewrite <- (proj1 (halves v j)) by lia; apply L; lia | apply Z32; lia].
Qed.

(** ** CountBits *)
(** x86: right for every type but long and negative chars. *)
Theorem C119_count_x86_partial : forall a t v, is_x86 a -> In t int_types -> tmin t <= v <= tmax t -> ~ (t = i8 /\ v < 0) -> CountBits_msvc a false t v = Some (Done (ones t v)).
Proof.
  intros a t v Ha Ht Hv N. change (ones t v) with (ones_count (Z.to_nat (wid t)) v).
  assert (J : (popcnt 32 (Z.shiftr v 32) + popcnt 32 v)%nat = ones_count 64 v).
  { rewrite !popcnt_ones by lia. change 64%nat with (32 + 32)%nat. rewrite ones_count_split, high_ones. change (Z.to_nat 32) with 32%nat. change (Z.of_nat 32) with 32. lia. }
  assert (M : 0 <= v <= 255 -> popcnt 16 v = ones_count 8 v).
  { intros R. rewrite popcnt_ones by lia. apply ones_count_more; [cbn; lia | lia]. }
  assert (P : forall w, 0 < w -> wid t = w -> popcnt w v = ones_count (Z.to_nat (wid t)) v) by (intros w W E; rewrite E; apply popcnt_ones; exact W).
  assert (P8 : wid t = 8 -> popcnt 16 v = ones_count (Z.to_nat (wid t)) v).
  { intros E. rewrite E. apply M. each_type Ht; ranges; try lia; try discriminate. destruct (Z.lt_ge_cases v 0); [exfalso; apply N; auto | lia]. }
  assert (P64 : wid t = 64 -> (popcnt 32 (Z.shiftr v 32) + popcnt 32 v)%nat = ones_count (Z.to_nat (wid t)) v) by (intros E; rewrite E; exact J).
  unfold CountBits_msvc. destruct (type_widths t Ht) as [E|[E|[E|E]]]; rewrite E in P, P8, P64 |- *; cbn [Z.eqb Z.leb Z.compare Pos.compare Pos.compare_cont Pos.eqb andb negb].
  - rewrite P8 by reflexivity. now destruct Ha as [-> | ->].
  - rewrite (P 16) by lia. now destruct Ha as [-> | ->].
  - rewrite (P 32) by lia. now destruct Ha as [-> | ->].
  - rewrite (P 64), P64 by lia. now destruct Ha as [-> | ->].
Qed.
Print Assumptions C119_count_x86_partial.
(** A negative char is extended to 16 bits first, so 8 more bits are counted; long does not compile. *)
Theorem C119_count_x86_refuted : forall a t v, is_x86 a ->
  (-128 <= v < 0 -> CountBits_msvc a false i8 v = Some (Done (ones i8 v + 8)%nat)) /\ (wid t = 32 -> CountBits_msvc a true t v = None).
Proof.
  intros a t v Ha. unfold CountBits_msvc. split.
  - intros H. change (ones i8 v) with (ones_count 8 v). rewrite <- ones_negative by (cbn; lia). destruct Ha as [-> | ->]; cbn -[ones_count popcnt]; now rewrite popcnt_ones by lia.
  - intros ->. destruct Ha as [-> | ->]; reflexivity.
Qed.
Print Assumptions C119_count_x86_refuted.
(** ARM has no intrinsic: right, except for negative values of int and wider, which end in undefined behaviour at run time. *)
Theorem C119_count_arm_partial : forall a long t v, ~ is_x86 a -> In t int_types -> tmin t <= v <= tmax t -> ~ (In t [i32; i64] /\ v < 0) -> CountBits_msvc a long t v = Some (Done (ones t v)).
Proof.
  intros a long t v Ha Ht Hv N. assert (C : CountBits_msvc a long t v = Some (CountBits_ce t v)) by (destruct a; try reflexivity; exfalso; apply Ha; [left | right]; reflexivity).
  rewrite C. f_equal. destruct (Z.lt_ge_cases v 0) as [S|S]; [|apply CountBits_ce_spec; trivial; lia].
  apply CountBits_ce_narrow_negative; [|lia]. clear C. each_type Ht; cbn; try tauto; try (ranges; lia); exfalso; apply N; cbn; tauto.
Qed.
Print Assumptions C119_count_arm_partial.
Theorem C119_count_arm_refuted : forall a long t v, ~ is_x86 a -> In t [i32; i64] -> tmin t <= v < 0 -> CountBits_msvc a long t v = Some (Fault FUB).
Proof.
  intros a long t v Ha Ht Hv. rewrite <- (CountBits_ce_negative t v Ht Hv). destruct a; try reflexivity; exfalso; apply Ha; [left | right]; reflexivity.
Qed.
Print Assumptions C119_count_arm_refuted.

(** ** FindFirstBit *)
(** Right, except in debug on a 32-bit machine for negative 64-bit values whose lower half is zero: SafeCast refuses the upper half. *)
Theorem C119_first_partial : forall debug a t v, In t int_types -> tmin t <= v <= tmax t ->
  ~ (debug = true /\ is_32bit a /\ t = i64 /\ v < 0 /\ v mod 2 ^ 32 = 0) -> exists r, FindFirstBit_msvc debug a t v = Done r /\ lowest_one t v r.
Proof.
  intros debug a t v Ht Hv N. assert (R : in_range t v = true) by (unfold in_range; lia). unfold FindFirstBit_msvc. destruct (Z.leb_spec (wid t) 32) as [W|W].
  { eexists. split; [reflexivity|]. apply (lowest_of t v _ 32); trivial. apply forward_spec. lia. }
  assert (T : In t [u64; i64]) by (each_type Ht; cbn in W |- *; try lia; tauto).
  assert (F : wid t = 64) by (cbn [In] in T; destruct T as [<-|[<-|[]]]; reflexivity).
  assert (G : exists r, (low <- to_ulong debug t (Z.land v 0xFFFFFFFF) ;; match BitScanForward 32 low with
    | Some i => Done (i + 1) | None => high <- to_ulong debug t (Z.shiftr v 32) ;; Done match BitScanForward 32 high with Some i => i + 33 | None => 0 end end) = Done r /\ lowest_one t v r \/ ~ is_32bit a).
  { destruct a; try (exists 0; right; intros [C|C]; discriminate).
    all: assert (B : is_32bit X86 /\ is_32bit Arm) by (split; [left | right]; reflexivity).
    all: rewrite land_low, to_ulong_nonneg by (trivial; apply Z.mod_pos_bound; lia); cbn [bind].
    all: pose proof (forward_join v (Z.shiftr v 32) eq_refl) as J1; pose proof (forward_join v (Z.shiftr v 32 mod 2 ^ 32) (Z.mod_mod (Z.shiftr v 32) (2 ^ 32) ltac:(lia))) as J2.
    all: pose proof (forward_case 32 (v mod 2 ^ 32) ltac:(lia)) as C.
    all: destruct (BitScanForward 32 (v mod 2 ^ 32)) as [i|]; [eexists; left; split; [reflexivity|]; apply (lowest_of t v _ 64); [exact Ht | exact R | lia | exact J1]|].
    all: assert (Z0 : v mod 2 ^ 32 = 0) by (apply Z.bits_inj'; intros j J; rewrite Z.bits_0; destruct (Z.lt_ge_cases j 32); [apply C; lia | apply Z.mod_pow2_bits_high; lia]).
    all: destruct debug; [|rewrite to_ulong_release; cbn [bind]; eexists; left; split; [reflexivity|]; apply (lowest_of t v _ 64); [exact Ht | exact R | lia | exact J2]].
    all: assert (P : 0 <= v < 2 ^ 64) by (cbn [In] in T; destruct T as [<-|[<-|[]]]; ranges; destruct (Z.lt_ge_cases v 0); try lia; exfalso; apply N; tauto).
    all: rewrite to_ulong_nonneg by first [exact T | rewrite Z.shiftr_div_pow2 by lia; split; [apply Z.div_pos; lia | apply Z.div_lt_upper_bound; lia]]; cbn [bind].
    all: eexists; left; split; [reflexivity|]; apply (lowest_of t v _ 64); [exact Ht | exact R | lia | exact J1]. }
  destruct a; try (destruct G as (r & [G|G]); [exists r; exact G | exfalso; apply G; unfold is_32bit; tauto]).
  all: eexists; split; [reflexivity|]; apply (lowest_of t v _ 64); trivial; [lia|]; apply forward_spec; lia.
Qed.
Print Assumptions C119_first_partial.
Theorem C119_first_refuted : forall a v, is_32bit a -> tmin i64 <= v < 0 -> v mod 2 ^ 32 = 0 -> FindFirstBit_msvc true a i64 v = Fault FAssert.
Proof.
  intros a v Ha Hv H0. assert (N : to_ulong true i64 (Z.shiftr v 32) = Fault FAssert) by (apply to_ulong_negative; apply Z.shiftr_neg; lia).
  unfold FindFirstBit_msvc. rewrite land_low, H0. destruct Ha as [-> | ->]; cbn [wid i64 Z.leb Z.compare Pos.compare Pos.compare_cont]; rewrite to_ulong_nonneg by (cbn; lia || tauto); cbn [bind]; change (BitScanForward 32 0) with (@None Z); cbn [bind]; now rewrite N.
Qed.
Print Assumptions C119_first_refuted.

(** ** FindLastBit *)
Theorem C119_last_partial : forall debug a t v, In t int_types -> tmin t <= v <= tmax t -> ~ (v < 0 /\ (In t [i8; i16] \/ debug = true /\ is_32bit a /\ t = i64)) ->
  exists r, FindLastBit_msvc debug a t v = Done r /\ highest_one t v r.
Proof.
  intros debug a t v Ht Hv N. assert (R : in_range t v = true) by (unfold in_range; lia). unfold FindLastBit_msvc. destruct (Z.leb_spec (wid t) 32) as [W|W].
  { eexists. split; [reflexivity|]. pose proof (reverse_spec 32 v ltac:(lia)) as S. destruct (Z.lt_ge_cases v 0) as [L|L]; [|apply (highest_nonneg t v _ 32); trivial; lia].
    apply highest_of; trivial. replace (wid t) with 32; [exact S|]. clear S. each_type Ht; try reflexivity; exfalso; try (ranges; lia); apply N; cbn; tauto. }
  assert (T : In t [u64; i64]) by (each_type Ht; cbn in W |- *; try lia; tauto).
  assert (F : wid t = 64) by (cbn [In] in T; destruct T as [<-|[<-|[]]]; reflexivity).
  assert (Q : forall r, is_last_bit 64 v r -> highest_one t v r) by (intros r S; apply highest_of; trivial; now rewrite F).
  destruct a; try (eexists; split; [reflexivity|]; apply Q; apply reverse_spec; lia).
  all: assert (B : is_32bit X86 /\ is_32bit Arm) by (split; [left | right]; reflexivity).
  all: pose proof (reverse_join v (Z.shiftr v 32) eq_refl) as J1; pose proof (reverse_join v (Z.shiftr v 32 mod 2 ^ 32) (Z.mod_mod (Z.shiftr v 32) (2 ^ 32) ltac:(lia))) as J2.
  all: assert (LOW : to_ulong debug t (Z.land v 0xFFFFFFFF) = Done (v mod 2 ^ 32)) by (rewrite land_low; apply to_ulong_nonneg; trivial; apply Z.mod_pos_bound; lia).
  all: assert (HIGH : exists h, to_ulong debug t (Z.shiftr v 32) = Done h /\ (h = Z.shiftr v 32 \/ h = Z.shiftr v 32 mod 2 ^ 32))
    by (destruct debug; [|rewrite to_ulong_release; eauto]; assert (P : 0 <= v < 2 ^ 64) by (clear J1 J2 LOW; cbn [In] in T; destruct T as [<-|[<-|[]]]; ranges; destruct (Z.lt_ge_cases v 0); try lia; exfalso; apply N; tauto);
        rewrite to_ulong_nonneg by first [exact T | rewrite Z.shiftr_div_pow2 by lia; split; [apply Z.div_pos; lia | apply Z.div_lt_upper_bound; lia]]; eauto).
  all: destruct HIGH as (h & HE & HH); rewrite HE, LOW; cbn [bind].
  all: assert (J : is_last_bit 64 v (match BitScanReverse 32 h with Some i => i + 33 | None => match BitScanReverse 32 (v mod 2 ^ 32) with Some i => i + 1 | None => 0 end end)) by (destruct HH as [-> | ->]; assumption).
  all: destruct (BitScanReverse 32 h); eexists; (split; [reflexivity|]); apply Q; exact J.
Qed.
Print Assumptions C119_last_partial.
(** Negative values: 32 instead of the width for 8 and 16 bits; in debug on a 32-bit machine, every negative 64-bit value is refused. *)
Theorem C119_last_refuted : forall debug a t v, tmin t <= v < 0 ->
  (In t [i8; i16] -> FindLastBit_msvc debug a t v = Done 32) /\ (is_32bit a -> t = i64 -> FindLastBit_msvc true a t v = Fault FAssert).
Proof.
  intros debug a t v Hv. split.
  - intros Ht. assert (M : v mod 2 ^ 32 = v + 2 ^ 32) by (symmetry; apply (Z.mod_unique v (2 ^ 32) (-1)); [left|]; cbn [In] in Ht; destruct Ht as [<-|[<-|[]]]; ranges; lia).
    assert (L : Z.log2 (v + 2 ^ 32) = 31) by (apply Z.log2_unique; cbn [In] in Ht; destruct Ht as [<-|[<-|[]]]; ranges; lia).
    unfold FindLastBit_msvc, BitScanReverse. rewrite cast_unsigned_mod by reflexivity. cbn [wid]. rewrite M.
    replace (wid t <=? 32) with true by (cbn [In] in Ht; destruct Ht as [<-|[<-|[]]]; reflexivity).
    destruct (v + 2 ^ 32) as [|p|p] eqn:E; [exfalso|now rewrite L|exfalso]; cbn [In] in Ht; destruct Ht as [<-|[<-|[]]]; ranges; lia.
  - intros Ha ->. assert (N : to_ulong true i64 (Z.shiftr v 32) = Fault FAssert) by (apply to_ulong_negative; apply Z.shiftr_neg; lia).
    unfold FindLastBit_msvc. destruct Ha as [-> | ->]; cbn [wid i64 Z.leb Z.compare Pos.compare Pos.compare_cont]; now rewrite N.
Qed.
Print Assumptions C119_last_refuted.
Example C119_example : CountBits_msvc X64 false u64 0xFF00FF0000000001 = Some (Done 17%nat) /\ CountBits_msvc X86 false i64 (-1) = Some (Done 64%nat) /\ CountBits_msvc X64 false i8 (-1) = Some (Done 16%nat) /\
  FindFirstBit_msvc true X86 u64 (2 ^ 40) = Done 41 /\ FindFirstBit_msvc true X86 i64 (- 2 ^ 40) = Fault FAssert /\ FindFirstBit_msvc false X86 i64 (- 2 ^ 40) = Done 41 /\
  FindLastBit_msvc true X86 i64 (2 ^ 40 + 5) = Done 41 /\ FindLastBit_msvc true X64 i64 (-1) = Done 64 /\ FindLastBit_msvc true X64 i8 (-1) = Done 32.
Proof. vm_compute. repeat split. Qed.
