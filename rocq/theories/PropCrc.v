(** Properties C130 and C131: what CRC32 detects, and how it composes. *)
From Verif Require Import HashSpec HashModel HashProofs PropHash CrcProofs.
Open Scope N_scope.

(** The bits of a message in the order of transmission. *)
Definition bits (x : list N) : list bool := concat (map bits_of x).
Lemma crc32_reg x : crc32 x = 2 ^ 32 - 1 - reg (bits x) (2 ^ 32 - 1).
Proof. reflexivity. Qed.
Lemma crc32_eq x y : crc32 x = crc32 y <-> reg (bits x) (2 ^ 32 - 1) = reg (bits y) (2 ^ 32 - 1).
Proof.
  rewrite !crc32_reg. pose proof (reg_lt (bits x) (2 ^ 32 - 1) eq_refl). pose proof (reg_lt (bits y) (2 ^ 32 - 1) eq_refl). split; intros E; [lia|now rewrite E].
Qed.
Lemma bits_app x y : bits (x ++ y) = bits x ++ bits y.
Proof. unfold bits. now rewrite map_app, concat_app. Qed.
Lemma bits_length x : length (bits x) = (8 * length x)%nat.
Proof. unfold bits. induction x as [|b x IH]; [reflexivity|]. cbn [map concat length]. rewrite app_length, IH. unfold bits_of. rewrite map_length. cbn [length]. lia. Qed.
(** Both overloads for sized data. *)
Definition same_crc (x y : list N) : Prop :=
  (forall sc, CRC32_view sc x = CRC32_view sc y) /\ CRC32_bytes x (length x) = CRC32_bytes y (length y).
Definition different_crc (x y : list N) : Prop :=
  (forall sc, CRC32_view sc x <> CRC32_view sc y) /\ CRC32_bytes x (length x) <> CRC32_bytes y (length y).
Lemma same_crc_iff x y : bytes x -> bytes y -> (same_crc x y <-> crc32 x = crc32 y).
Proof.
  intros X Y. unfold same_crc. rewrite !C53_CRC32_bytes, !firstn_all by (assumption || lia). split; [intros (_ & E); now injection E|]. intros E. rewrite E. split; [|reflexivity].
  intros sc. rewrite !C53_CRC32_view by assumption. now rewrite E.
Qed.
Lemma different_crc_iff x y : bytes x -> bytes y -> (different_crc x y <-> crc32 x <> crc32 y).
Proof.
  intros X Y. unfold different_crc. rewrite !C53_CRC32_bytes, !firstn_all by (assumption || lia). split; [intros (_ & E) F; now rewrite F in E|]. intros E. split; [|congruence].
  intros sc. rewrite !C53_CRC32_view by assumption. congruence.
Qed.
(** Two messages that differ by the pattern [e] of bits, somewhere. *)
Lemma pattern x y p b b' s : bits x = p ++ b ++ s -> bits y = p ++ b' ++ s -> length b = length b' -> (crc32 x = crc32 y <-> reg (xors b b') 0 = 0).
Proof.
  intros X Y L. rewrite crc32_eq, X, Y, !reg_app. assert (R : reg p (2 ^ 32 - 1) < 2 ^ 32) by now apply reg_lt. rewrite <- (reg_difference b b' (reg p (2 ^ 32 - 1)) L). split.
  - intros E. apply reg_inj in E; [|now apply reg_lt|now apply reg_lt]. now rewrite E, N.lxor_nilpotent.
  - intros E. apply N.lxor_eq in E. now rewrite E.
Qed.

(** *** C130 *)
(** Every error confined to 32 consecutive bits is detected. *)
Theorem C130_burst : forall x y p b b' s, bytes x -> bytes y -> bits x = p ++ b ++ s -> bits y = p ++ b' ++ s -> length b = length b' -> (length b <= 32)%nat -> b <> b' -> different_crc x y.
Proof.
  intros x y p b b' s BX BY X Y L M D. apply different_crc_iff; [exact BX|exact BY|]. intros E. apply (pattern x y p b b' s X Y L) in E. apply D. apply xors_eq; [exact L|].
  pose proof (no_short_multiple (xors b b')) as Z. rewrite xors_length in Z by exact L. now apply Z.
Qed.
Print Assumptions C130_burst.
(** Of the errors confined to 33 bits exactly one is missed: the generator polynomial. *)
Definition generator : list bool := true :: map (fun k => N.testbit 0xEDB88320 (N.of_nat k)) (seq 0 32).
Theorem C130_burst_33 : forall x y p b b' s, bytes x -> bytes y -> bits x = p ++ b ++ s -> bits y = p ++ b' ++ s -> length b = 33%nat -> length b' = 33%nat -> b <> b' ->
  (same_crc x y <-> map (fun q => xorb (fst q) (snd q)) (combine b b') = generator).
Proof.
  intros x y p b b' s BX BY X Y L L' D. rewrite (same_crc_iff x y BX BY). rewrite (pattern x y p b b' s X Y) by congruence.
  assert (Z : forall u v, map (fun q => xorb (fst q) (snd q)) (combine u v) = xors u v) by (induction u as [|a u IH]; intros [|a' v]; try reflexivity; cbn; now rewrite IH). rewrite Z.
  assert (G : reg generator 0 = 0) by (vm_compute; reflexivity). split; [|intros ->; exact G].
  intros E. assert (LE : length (xors b b') = 33%nat) by (rewrite xors_length; congruence). destruct (xors b b') as [|c e] eqn:EQ; [discriminate|]. injection LE as LE. destruct c.
  - assert (H : reg (xors (true :: e) generator) 0 = 0) by (change 0 with (N.lxor 0 0) at 1; rewrite reg_xors, E, G by (cbn [length]; rewrite LE; reflexivity); reflexivity).
    unfold generator in *. set (g := map (fun k => N.testbit 0xEDB88320 (N.of_nat k)) (seq 0 32)) in *. assert (LG : length g = 32%nat) by (subst g; now rewrite map_length, seq_length).
    cbn [xors xorb] in H. rewrite reg_cons in H. change (T (N.lxor 0 (N.b2n false))) with 0 in H. f_equal.
    apply xors_eq; [congruence|]. pose proof (no_short_multiple (xors e g)) as Q. rewrite xors_length in Q by congruence. apply Q; [lia|exact H].
  - exfalso. rewrite reg_cons in E. change (T (N.lxor 0 (N.b2n false))) with 0 in E. apply no_short_multiple in E; [|lia]. apply D. apply xors_eq; [congruence|]. rewrite EQ, L. rewrite E, LE. reflexivity.
Qed.
Print Assumptions C130_burst_33.
(** Two wrong bits are detected unless their distance is a multiple of 2^32 - 1. *)
Theorem C130_two_bits : forall x y p a q b s, bytes x -> bytes y -> bits x = p ++ a :: q ++ b :: s -> bits y = p ++ negb a :: q ++ negb b :: s ->
  (same_crc x y <-> (2 ^ 32 - 1 | N.of_nat (length q) + 1)) /\ (N.of_nat (length q) + 1 < 2 ^ 32 - 1 -> different_crc x y).
Proof.
  intros x y p a q b s BX BY X Y.
  assert (K : crc32 x = crc32 y <-> (2 ^ 32 - 1 | N.of_nat (length q) + 1)).
  { rewrite (pattern x y p (a :: q ++ [b]) (negb a :: q ++ [negb b]) s); [|rewrite X; cbn [app]; now rewrite <- app_assoc|rewrite Y; cbn [app]; now rewrite <- app_assoc|cbn [length]; now rewrite !app_length].
    cbn [xors]. rewrite xors_app by reflexivity. cbn [xors]. assert (N1 : forall c, xorb c (negb c) = true) by (now intros []). rewrite !N1, xors_self, reg_cons, reg_app, reg_zeros. change (T (N.lxor 0 (N.b2n true))) with (T 1).
    rewrite reg_cons. cbn [reg fold_left N.b2n]. rewrite iter_swap. change (T (Nat.iter (length q) T 1)) with (Nat.iter (S (length q)) T 1). rewrite iter_nat_N, Nat2N.inj_succ, <- N.add_1_r.
    rewrite <- (order (N.of_nat (length q) + 1)). unfold fixes. set (v := N.iter (N.of_nat (length q) + 1) T 1). split.
    - intros E. apply T_zero in E; [now apply N.lxor_eq|]. apply lxor_lt; [|reflexivity]. subst v. rewrite N.add_1_r, <- Nat2N.inj_succ, <- iter_nat_N. now apply iter_lt.
    - intros ->. reflexivity. }
  split; [now rewrite same_crc_iff|]. intros H. apply different_crc_iff; [exact BX|exact BY|]. intros E. apply K in E. apply N.divide_pos_le in E; lia.
Qed.
Print Assumptions C130_two_bits.
Example C130_nonvacuous : (* three bytes; a burst across two of them, two bits 19 apart *)
  let x := [0x12; 0x34; 0x56] in let y := [0x92; 0x35; 0x56] in let z := [0x13; 0x34; 0x5E] in
  (exists p b b' s, bits x = p ++ b ++ s /\ bits y = p ++ b' ++ s /\ length b = length b' /\ (length b <= 32)%nat /\ b <> b') /\
  (exists p a q b s, bits x = p ++ a :: q ++ b :: s /\ bits z = p ++ negb a :: q ++ negb b :: s /\ length q = 18%nat) /\ crc32 x <> crc32 y /\ crc32 x <> crc32 z.
Proof.
  split; [|split; [|split; vm_compute; discriminate]].
  - exists (firstn 7 (bits [0x12; 0x34; 0x56])), [false; false], [true; true], (skipn 9 (bits [0x12; 0x34; 0x56])). repeat split; try reflexivity; [cbn; lia|discriminate].
  - exists [], false, (firstn 18 (skipn 1 (bits [0x12; 0x34; 0x56]))), false, (skipn 20 (bits [0x12; 0x34; 0x56])). repeat split; reflexivity.
Qed.

(** *** C131 *)
(** A common end keeps equal CRCs equal and different ones different, whatever the lengths before; a common beginning does for equal lengths. *)
Theorem C131_concatenation : forall a b s, bytes a -> bytes b -> bytes s ->
  (same_crc (a ++ s) (b ++ s) <-> same_crc a b) /\ (length a = length b -> (same_crc (s ++ a) (s ++ b) <-> same_crc a b)).
Proof.
  intros a b s A B S. assert (APP : forall u v, bytes u -> bytes v -> bytes (u ++ v)) by (intros u v U V; apply Forall_app; auto).
  split; [|intros L]; rewrite !same_crc_iff by auto; rewrite !crc32_eq, !bits_app, !reg_app.
  - split; [|now intros ->]. apply reg_inj; now apply reg_lt.
  - assert (LB : length (bits a) = length (bits b)) by (rewrite !bits_length; congruence).
    assert (Q : forall r, reg (bits a) r = reg (bits b) r <-> reg (xors (bits a) (bits b)) 0 = 0).
    { intros r. rewrite <- (reg_difference _ _ r LB). split; [intros ->; apply N.lxor_nilpotent|apply N.lxor_eq]. }
    now rewrite !Q.
Qed.
Print Assumptions C131_concatenation.
(** CRC32 is affine: for three messages of the same length, the CRC of the exclusive or is the exclusive or of the CRCs. *)
Fixpoint xor3 (x y z : list N) : list N := match x, y, z with a :: x, b :: y, c :: z => N.lxor a (N.lxor b c) :: xor3 x y z | _, _, _ => [] end.
Lemma bits_of_xor a b : bits_of (N.lxor a b) = xors (bits_of a) (bits_of b).
Proof. unfold bits_of. cbn [map xors]. now rewrite !N.lxor_spec. Qed.
Lemma bits_xor3 : forall x y z, length x = length y -> length x = length z -> bits (xor3 x y z) = xors (bits x) (xors (bits y) (bits z)).
Proof.
  unfold bits. induction x as [|a x IH]; intros [|b y] [|c z] L1 L2; try discriminate; [reflexivity|]. cbn [xor3 map concat]. rewrite !bits_of_xor.
  rewrite (xors_app (bits_of b)) by reflexivity. rewrite (xors_app (bits_of a)) by reflexivity. f_equal. apply IH; [now injection L1|now injection L2].
Qed.
Lemma complement r : r < 2 ^ 32 -> 2 ^ 32 - 1 - r = N.lxor (2 ^ 32 - 1) r.
Proof.
  intros H. change (2 ^ 32 - 1) with (N.ones 32). rewrite N.lxor_comm. change (N.lxor r (N.ones 32)) with (N.lnot r 32). destruct (N.eq_dec r 0) as [->|D]; [reflexivity|].
  rewrite N.lnot_sub_low; [reflexivity|]. apply N.log2_lt_pow2; [lia|exact H].
Qed.
Theorem C131_affine : forall x y z sc, bytes x -> bytes y -> bytes z -> length x = length y -> length x = length z ->
  exists cx cy cz, CRC32_view sc x = Done cx /\ CRC32_view sc y = Done cy /\ CRC32_view sc z = Done cz /\ CRC32_view sc (xor3 x y z) = Done (N.lxor cx (N.lxor cy cz)).
Proof.
  intros x y z sc X Y Z L1 L2. exists (crc32 x), (crc32 y), (crc32 z). rewrite !C53_CRC32_view by assumption. do 3 (split; [reflexivity|]).
  assert (B3 : bytes (xor3 x y z)).
  { clear sc. revert y z Y Z L1 L2. induction X as [|a x A X IH]; intros [|b y] [|c z] Y Z L1 L2; try discriminate; [constructor|]. inversion Y; inversion Z; subst. cbn [xor3]. constructor.
    - change 256 with (2 ^ 8) in *. apply lxor_lt; [assumption|now apply lxor_lt].
    - apply IH; [assumption|assumption|now injection L1|now injection L2]. }
  rewrite C53_CRC32_view by exact B3. f_equal. rewrite !crc32_reg, (bits_xor3 x y z L1 L2).
  assert (LB : length (bits x) = length (bits y)) by (rewrite !bits_length; congruence). assert (LC : length (bits y) = length (bits z)) by (rewrite !bits_length; congruence).
  set (o := 2 ^ 32 - 1). assert (O : o < 2 ^ 32) by reflexivity.
  replace (reg (xors (bits x) (xors (bits y) (bits z))) o) with (N.lxor (reg (bits x) o) (N.lxor (reg (bits y) o) (reg (bits z) o))).
  2: { rewrite <- (reg_xors (bits y) (bits z)), <- reg_xors by (rewrite ?xors_length; assumption). now rewrite N.lxor_nilpotent, N.lxor_0_r. }
  assert (Rx := reg_lt (bits x) o O). assert (Ry := reg_lt (bits y) o O). assert (Rz := reg_lt (bits z) o O).
  unfold o at 1 5 6 7. rewrite !complement by (try apply lxor_lt; try assumption; now apply lxor_lt). fold o.
  set (u := reg (bits x) o). set (v := reg (bits y) o). set (w := reg (bits z) o). clearbody u v w o. clear.
  apply N.bits_inj. intros n. rewrite !N.lxor_spec. now destruct (N.testbit o n), (N.testbit u n), (N.testbit v n), (N.testbit w n).
Qed.
Print Assumptions C131_affine.

(** Four bytes, the lowest first. *)
Definition little_endian (w : N) : list N := [w mod 256; w / 2 ^ 8 mod 256; w / 2 ^ 16 mod 256; w / 2 ^ 24 mod 256].
Lemma little_endian_bytes w : bytes (little_endian w).
Proof. repeat constructor; now apply N.mod_lt. Qed.
Lemma word_enters w n : forall a u, reg (map (fun k => N.testbit w (N.of_nat k)) (seq a n)) (N.lxor u (N.shiftr w (N.of_nat a))) = N.lxor (Nat.iter n T u) (N.shiftr w (N.of_nat (a + n))).
Proof.
  induction n as [|n IH]; intros a u; cbn [seq map]; [now rewrite Nat.add_0_r|]. unfold reg. cbn [fold_left]. rewrite bit_enters, <- Nat2N.inj_succ. rewrite <- (iter_swap n u : _ = Nat.iter (S n) T u).
  replace (a + S n)%nat with (S a + n)%nat by lia. apply IH.
Qed.
Lemma little_endian_bits w : bits (little_endian w) = map (fun k => N.testbit w (N.of_nat k)) (seq 0 32).
Proof.
  assert (B : forall s k, k < 8 -> N.testbit (w / 2 ^ s mod 256) k = N.testbit w (k + s)).
  { intros s k K. change 256 with (2 ^ 8). rewrite N.mod_pow2_bits_low by exact K. now rewrite N.div_pow2_bits. }
  assert (B0 : forall k, k < 8 -> N.testbit (w mod 256) k = N.testbit w k) by (intros k K; change 256 with (2 ^ 8); now rewrite N.mod_pow2_bits_low).
  unfold bits, little_endian, bits_of. cbn [map concat app seq]. rewrite !B0 by reflexivity. rewrite !B by reflexivity. reflexivity.
Qed.
Lemma append_word w r : w < 2 ^ 32 -> reg (bits (little_endian w)) r = Nat.iter 32 T (N.lxor r w).
Proof.
  intros W. rewrite little_endian_bits. pose proof (word_enters w 32 0 (N.lxor r w)) as E. change (N.of_nat 0) with 0 in E. rewrite N.shiftr_0_r, N.lxor_assoc, N.lxor_nilpotent, N.lxor_0_r in E.
  rewrite E. replace (N.shiftr w (N.of_nat (0 + 32))) with 0; [apply N.lxor_0_r|]. symmetry. change (N.of_nat (0 + 32)) with 32. rewrite N.shiftr_div_pow2. now apply N.div_small.
Qed.
(** A message followed by its CRC has a fixed CRC. *)
Theorem C131_residue : forall sc m, bytes m -> exists c, CRC32_view sc m = Done c /\ c < 2 ^ 32 /\ CRC32_view sc (m ++ little_endian c) = Done 0x2144DF1C.
Proof.
  intros sc m M. exists (crc32 m). assert (R := reg_lt (bits m) (2 ^ 32 - 1) eq_refl). assert (C : crc32 m < 2 ^ 32) by (rewrite crc32_reg; lia). rewrite C53_CRC32_view by exact M. split; [reflexivity|]. split; [exact C|].
  rewrite C53_CRC32_view by (apply Forall_app; split; [exact M|apply little_endian_bytes]). f_equal. rewrite (crc32_reg (m ++ _)), bits_app, reg_app, append_word by exact C.
  replace (N.lxor (reg (bits m) (2 ^ 32 - 1)) (crc32 m)) with (2 ^ 32 - 1); [vm_compute; reflexivity|].
  rewrite crc32_reg, complement by exact R. rewrite (N.lxor_comm (2 ^ 32 - 1)), <- N.lxor_assoc, N.lxor_nilpotent. reflexivity.
Qed.
Print Assumptions C131_residue.
(** Every value is the CRC of every message with four bytes appended, in exactly one way: the CRC is no protection against intent. *)
Lemma iter_inverse n : forall y, Nat.iter n T (Nat.iter n T_inverse y) = y.
Proof. induction n as [|n IH]; intros y; [reflexivity|]. change (Nat.iter (S n) T_inverse y) with (T_inverse (Nat.iter n T_inverse y)). change (Nat.iter (S n) T ?x) with (T (Nat.iter n T x)). rewrite <- iter_swap, T_inverse_spec. apply IH. Qed.
Lemma iter_inverse_lt n : forall y, y < 2 ^ 32 -> Nat.iter n T_inverse y < 2 ^ 32.
Proof. induction n as [|n IH]; intros y H; [exact H|]. apply T_inverse_lt, IH, H. Qed.
Lemma four_bytes l : bytes l -> length l = 4%nat -> exists w, w < 2 ^ 32 /\ l = little_endian w.
Proof.
  intros B L. destruct l as [|a [|b [|c [|d [|]]]]]; try discriminate. inversion B as [|? ? Ha B1]; inversion B1 as [|? ? Hb B2]; inversion B2 as [|? ? Hc B3]; inversion B3 as [|? ? Hd _]; subst.
  exists (a + 256 * (b + 256 * (c + 256 * d))). split; [change (2 ^ 32) with (256 * (256 * (256 * 256))); nia|]. unfold little_endian.
  change (2 ^ 8) with 256. change (2 ^ 16) with (256 * 256). change (2 ^ 24) with (256 * (256 * 256)). rewrite <- !N.div_div by discriminate.
  assert (D : forall u v, u < 256 -> (u + 256 * v) / 256 = v /\ (u + 256 * v) mod 256 = u) by (intros u v U; rewrite (N.mul_comm 256 v), N.div_add, N.mod_add, N.div_small, N.mod_small by (discriminate || exact U); lia).
  repeat match goal with |- context [(?u + 256 * ?v) / 256] => rewrite (proj1 (D u v ltac:(assumption))) end.
  rewrite !(proj2 (D _ _ Ha)), !(proj2 (D _ _ Hb)), !(proj2 (D _ _ Hc)), (N.mod_small d) by assumption. reflexivity.
Qed.
Lemma done_inj (a b : N) : Done a = Done b -> a = b.
Proof. intros E. now injection E. Qed.
Theorem C131_forge : forall sc m t, bytes m -> t < 2 ^ 32 ->
  exists l, (bytes l /\ length l = 4%nat /\ CRC32_view sc (m ++ l) = Done t) /\ forall l', bytes l' /\ length l' = 4%nat /\ CRC32_view sc (m ++ l') = Done t -> l' = l.
Proof.
  intros sc m t M H. set (r := reg (bits m) (2 ^ 32 - 1)). assert (R : r < 2 ^ 32) by now apply reg_lt. set (w := N.lxor r (Nat.iter 32 T_inverse (2 ^ 32 - 1 - t))).
  assert (I : Nat.iter 32 T_inverse (2 ^ 32 - 1 - t) < 2 ^ 32) by (apply iter_inverse_lt; lia). assert (W : w < 2 ^ 32) by (apply lxor_lt; assumption).
  assert (CRC : forall v, v < 2 ^ 32 -> CRC32_view sc (m ++ little_endian v) = Done (2 ^ 32 - 1 - Nat.iter 32 T (N.lxor r v))).
  { intros v V. rewrite C53_CRC32_view by (apply Forall_app; split; [exact M|apply little_endian_bytes]). rewrite crc32_reg, bits_app, reg_app, append_word by exact V. reflexivity. }
  exists (little_endian w). split.
  - split; [apply little_endian_bytes|]. split; [reflexivity|]. rewrite CRC by exact W. f_equal. unfold w. rewrite <- N.lxor_assoc, N.lxor_nilpotent, N.lxor_0_l, iter_inverse. lia.
  - intros l' (B & L & E). destruct (four_bytes l' B L) as (v & V & ->). rewrite CRC in E by exact V. apply done_inj in E. f_equal.
    assert (K : Nat.iter 32 T (N.lxor r v) < 2 ^ 32) by (apply iter_lt, lxor_lt; assumption). unfold w.
    assert (F : N.lxor r v = Nat.iter 32 T_inverse (2 ^ 32 - 1 - t)).
    { apply N.lxor_eq. apply (iter_zero 32); [apply lxor_lt; [apply lxor_lt|]; assumption|]. rewrite T_iter_lxor, iter_inverse. replace (2 ^ 32 - 1 - t) with (Nat.iter 32 T (N.lxor r v)) by lia. apply N.lxor_nilpotent. }
    rewrite <- F, <- N.lxor_assoc, N.lxor_nilpotent. symmetry. apply N.lxor_0_l.
Qed.
Print Assumptions C131_forge.
(** Zero bytes in front of a message change its CRC: the register does not start at 0. *)
Theorem C131_leading_zeros : forall m n, bytes m -> 0 < N.of_nat n < 2 ^ 32 - 1 -> different_crc (repeat 0 n ++ m) m.
Proof.
  intros m n M H. assert (B : bytes (repeat 0 n)) by (apply Forall_forall; intros b I; apply repeat_spec in I; subst; reflexivity).
  apply different_crc_iff; [apply Forall_app; auto|exact M|]. intros E. apply crc32_eq in E. rewrite bits_app, reg_app in E. apply reg_inj in E; [|now apply reg_lt|reflexivity].
  assert (Z : bits (repeat 0 n) = repeat false (8 * n)).
  { clear. induction n as [|n IH]; [reflexivity|]. replace (8 * S n)%nat with (8 + 8 * n)%nat by lia. unfold bits in *. cbn [repeat map concat]. rewrite IH. reflexivity. }
  rewrite Z, reg_zeros, iter_nat_N in E.
  assert (S : 2 ^ 32 - 1 = N.iter 3091501127 T 1) by (change 3091501127 with (Npos 3091501127); cbn [N.iter]; rewrite <- (power_iter 3091501127 MT T 1 matrix_T eq_refl); vm_compute; reflexivity).
  rewrite S in E. clear S. set (k := 3091501127) in E. clearbody k. rewrite <- N.iter_add, N.add_comm, N.iter_add in E.
  assert (F : fixes (N.of_nat (8 * n))).
  { unfold fixes. apply N.lxor_eq. apply (iter_zero (N.to_nat k)).
    - apply lxor_lt; [|reflexivity]. rewrite <- iter_nat_N. now apply iter_lt.
    - rewrite T_iter_lxor, !iter_nat_N, N2Nat.id, E. apply N.lxor_nilpotent. }
  apply order in F. replace (N.of_nat (8 * n)) with (N.of_nat n * 8) in F by lia. rewrite N.mul_comm in F. apply N.gauss in F; [|reflexivity]. apply N.divide_pos_le in F; [|lia]. unfold full in F. lia.
Qed.
Print Assumptions C131_leading_zeros.
Example C131_nonvacuous :
  CRC32_view true ([1; 2; 3] ++ little_endian (crc32 [1; 2; 3])) = Done 0x2144DF1C /\ CRC32_view true [0; 1] <> CRC32_view true [1] /\
  xor3 [1] [2] [7] = [4] /\ crc32 [4] = N.lxor (crc32 [1]) (N.lxor (crc32 [2]) (crc32 [7])) /\ little_endian 0x01020304 = [4; 3; 2; 1].
Proof. repeat split; vm_compute; (reflexivity || discriminate). Qed.
