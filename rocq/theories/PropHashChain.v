(** Property C132: FNV-1a and HashCombine over composed data. *)
From Verif Require Import HashSpec HashModel HashProofs PropHash.
Open Scope N_scope.

Definition fnv32 (m : list N) : outcome N := FNV1a32_bytes m (length m).
Definition fnv64 (m : list N) : outcome N := FNV1a64_bytes m (length m).
Lemma done_inj (a b : N) : Done a = Done b <-> a = b.
Proof. split; [intros E; now injection E|now intros ->]. Qed.
Lemma fnv32_eq x y : fnv32 x = fnv32 y <-> fold_left (fnv_g FNV1Prime_32 32) x FNV1OffsetBasis_32 = fold_left (fnv_g FNV1Prime_32 32) y FNV1OffsetBasis_32.
Proof. unfold fnv32. rewrite !C54_FNV1a32_bytes, !firstn_all by lia. apply done_inj. Qed.
Lemma fnv64_eq x y : fnv64 x = fnv64 y <-> fold_left (fnv_g FNV1Prime_64 64) x FNV1OffsetBasis_64 = fold_left (fnv_g FNV1Prime_64 64) y FNV1OffsetBasis_64.
Proof. unfold fnv64. rewrite !C54_FNV1a64_bytes, !firstn_all by lia. apply done_inj. Qed.

(** Appending the same bytes keeps equal hashes equal and different ones different. *)
Theorem C132_suffix : forall a b s, bytes a -> bytes b -> bytes s -> (fnv32 (a ++ s) = fnv32 (b ++ s) <-> fnv32 a = fnv32 b) /\ (fnv64 (a ++ s) = fnv64 (b ++ s) <-> fnv64 a = fnv64 b).
Proof.
  intros a b s A B S. rewrite !fnv32_eq, !fnv64_eq, !fold_left_app. split; (split; [|now intros ->]).
  - apply (fold_inj (fnv_g FNV1Prime_32 32) 32 (fnv_g_lt FNV1Prime_32 32) (fnv_g_inj FNV1Prime_32 899433627 32 ltac:(discriminate) eq_refl) s S); now apply (fold_lt _ 32 (fnv_g_lt FNV1Prime_32 32)).
  - apply (fold_inj (fnv_g FNV1Prime_64 64) 64 (fnv_g_lt FNV1Prime_64 64) (fnv_g_inj FNV1Prime_64 14886173955864302971 64 ltac:(discriminate) eq_refl) s S); now apply (fold_lt _ 64 (fnv_g_lt FNV1Prime_64 64)).
Qed.
Print Assumptions C132_suffix.

(** *** The order of an odd number modulo a power of two *)
Lemma odd_divides_pow e k : (e | 2 ^ k) -> N.odd e = true -> e = 1.
Proof.
  intros D O. induction k as [|k IH] using N.peano_ind; [now apply N.divide_1_r|]. rewrite N.pow_succ_r' in D. apply IH. apply (N.gauss e 2); [exact D|].
  apply N.odd_spec in O. destruct O as (q & ->). rewrite N.gcd_comm, <- N.gcd_mod, N.gcd_comm by discriminate. rewrite N.add_comm, N.mul_comm, N.mod_add by discriminate. reflexivity.
Qed.
Section Order.
Variables (p w k : N).
Definition one (n : N) : Prop := p ^ n mod 2 ^ w = 1.
Hypothesis (W : 0 < w) (H1 : one (2 ^ N.succ k)) (H0 : ~ one (2 ^ k)).
Lemma big : 1 < 2 ^ w.
Proof. apply N.pow_gt_1; lia. Qed.
Lemma nz : 2 ^ w <> 0.
Proof. pose proof big. lia. Qed.
Lemma one_add a b : one a -> (one (a + b) <-> one b).
Proof. unfold one. intros A. rewrite N.pow_add_r, N.mul_mod, A, N.mul_1_l, N.mod_mod by exact nz. reflexivity. Qed.
Lemma one_mul a q : one a -> one (a * q).
Proof. intros A. induction q as [|q IH] using N.peano_ind; [rewrite N.mul_0_r; unfold one; rewrite N.pow_0_r; apply N.mod_small, big|]. rewrite N.mul_succ_r, N.add_comm. now apply one_add. Qed.
Lemma one_gcd b : forall a, one a -> one b -> one (N.gcd a b).
Proof.
  induction b as [b IH] using (well_founded_induction N.lt_wf_0). intros a A B. destruct (N.eq_dec b 0) as [->|Z]; [now rewrite N.gcd_0_r|].
  rewrite N.gcd_comm, <- N.gcd_mod, N.gcd_comm by exact Z. apply IH; [now apply N.mod_lt|exact B|].
  rewrite (N.div_mod a b Z) in A. apply one_add in A; [exact A|]. now apply one_mul.
Qed.
Lemma one_iff n : one n <-> (2 ^ N.succ k | n).
Proof.
  split; [|intros (q & ->); rewrite N.mul_comm; now apply one_mul]. intros A. pose proof (one_gcd (2 ^ N.succ k) n A H1) as G. destruct (N.gcd_divide_r n (2 ^ N.succ k)) as (e & E).
  destruct (N.odd e) eqn:O.
  - assert (e = 1) as -> by (apply (odd_divides_pow e (N.succ k)); [exists (N.gcd n (2 ^ N.succ k)); lia|exact O]). rewrite N.mul_1_l in E. rewrite E. apply N.gcd_divide_l.
  - exfalso. apply H0. rewrite <- N.negb_even in O. apply negb_false_iff, N.even_spec in O. destruct O as (f & ->). replace (2 ^ k) with (N.gcd n (2 ^ N.succ k) * f); [now apply one_mul|].
    apply (N.mul_cancel_l _ _ 2); [discriminate|]. rewrite N.pow_succ_r' in E at 1. lia.
Qed.
End Order.
(** Powers of two of the exponent, by squaring *)
Lemma squares p M j : M <> 0 -> p ^ (2 ^ N.of_nat j) mod M = Nat.iter j (fun x => x * x mod M) (p mod M).
Proof.
  intros Z. induction j as [|j IH]; [now rewrite N.pow_1_r|]. rewrite Nat2N.inj_succ, N.pow_succ_r', N.mul_comm, N.pow_mul_r. change (Nat.iter (S j) (fun x => x * x mod M) (p mod M)) with ((fun x => x * x mod M) (Nat.iter j (fun x => x * x mod M) (p mod M))). rewrite <- IH. cbv beta. rewrite N.pow_2_r. apply N.mul_mod, Z.
Qed.
Lemma order32 n : one FNV1Prime_32 32 n <-> (2 ^ 30 | n).
Proof.
  apply (one_iff FNV1Prime_32 32 29); [reflexivity| |]; unfold one.
  - change (N.succ 29) with (N.of_nat 30). rewrite squares by discriminate. vm_compute. reflexivity.
  - change 29 with (N.of_nat 29). rewrite squares by discriminate. vm_compute. discriminate.
Qed.
Lemma order64 n : one FNV1Prime_64 64 n <-> (2 ^ 62 | n).
Proof.
  apply (one_iff FNV1Prime_64 64 61); [reflexivity| |]; unfold one.
  - change (N.succ 61) with (N.of_nat 62). rewrite squares by discriminate. vm_compute. reflexivity.
  - change 61 with (N.of_nat 61). rewrite squares by discriminate. vm_compute. discriminate.
Qed.
Lemma zeros_enter p w n : forall h, h < 2 ^ w -> fold_left (fnv_g p w) (repeat 0 n) h = (p ^ N.of_nat n mod 2 ^ w) * h mod 2 ^ w.
Proof.
  assert (Z : 2 ^ w <> 0) by (apply N.pow_nonzero; discriminate).
  induction n as [|n IH]; intros h H; cbn [repeat fold_left].
  - change (N.of_nat 0) with 0. rewrite N.pow_0_r, N.mul_mod_idemp_l, N.mul_1_l by exact Z. symmetry. now apply N.mod_small.
  - rewrite IH by (apply N.mod_lt, Z). unfold fnv_g. rewrite N.lxor_0_r, !N.mul_mod_idemp_l, N.mul_mod_idemp_r by exact Z. f_equal. rewrite Nat2N.inj_succ, N.pow_succ_r'. lia.
Qed.
Lemma zeros_keep p w n h inv : 0 < w -> h < 2 ^ w -> h * inv mod 2 ^ w = 1 -> (fold_left (fnv_g p w) (repeat 0 n) h = h <-> one p w (N.of_nat n)).
Proof.
  intros W H I. rewrite zeros_enter by exact H. unfold one. assert (Z : 2 ^ w <> 0) by (apply N.pow_nonzero; discriminate). split.
  - intros E. apply (mul_odd_inj w h inv); [exact I|now apply N.mod_lt|now apply big|]. rewrite E, N.mul_1_l. symmetry. now apply N.mod_small.
  - intros ->. rewrite N.mul_1_l. now apply N.mod_small.
Qed.

(** Zero bytes in front of a message change its hash unless their number is a multiple of 2^30 (2^62). *)
Theorem C132_leading_zeros : forall n m, bytes m -> (fnv32 (repeat 0 n ++ m) = fnv32 m <-> (2 ^ 30 | N.of_nat n)) /\ (fnv64 (repeat 0 n ++ m) = fnv64 m <-> (2 ^ 62 | N.of_nat n)).
Proof.
  intros n m M. assert (B : bytes (repeat 0 n)) by (apply Forall_forall; intros b I; apply repeat_spec in I; subst; reflexivity).
  rewrite fnv32_eq, fnv64_eq, !fold_left_app, <- order32, <- order64. split.
  - rewrite <- (zeros_keep FNV1Prime_32 32 n FNV1OffsetBasis_32 3180386573 eq_refl eq_refl eq_refl). split; [|now intros ->].
    apply (fold_inj (fnv_g FNV1Prime_32 32) 32 (fnv_g_lt FNV1Prime_32 32) (fnv_g_inj FNV1Prime_32 899433627 32 ltac:(discriminate) eq_refl) m M); [|reflexivity]. now apply (fold_lt _ 32 (fnv_g_lt FNV1Prime_32 32)).
  - rewrite <- (zeros_keep FNV1Prime_64 64 n FNV1OffsetBasis_64 15658476654395736237 eq_refl eq_refl eq_refl). split; [|now intros ->].
    apply (fold_inj (fnv_g FNV1Prime_64 64) 64 (fnv_g_lt FNV1Prime_64 64) (fnv_g_inj FNV1Prime_64 14886173955864302971 64 ltac:(discriminate) eq_refl) m M); [|reflexivity]. now apply (fold_lt _ 64 (fnv_g_lt FNV1Prime_64 64)).
Qed.
Print Assumptions C132_leading_zeros.
(** Zero bytes at the end do not always: some messages hash to 0, and keep doing so. *)
Theorem C132_trailing_zeros_refuted : exists m m', bytes m /\ bytes m' /\ forall n, fnv32 (m ++ repeat 0 n) = Done 0 /\ fnv64 (m' ++ repeat 0 n) = Done 0.
Proof.
  exists [0xCC; 0x24; 0x31; 0xC4], [0xD5; 0x6B; 0xB9; 0x53; 0x42; 0x87; 0x08; 0x36].
  split; [repeat constructor; reflexivity|]. split; [repeat constructor; reflexivity|]. intros n. unfold fnv32, fnv64. rewrite C54_FNV1a32_bytes, C54_FNV1a64_bytes, !firstn_all by lia. unfold fnv1a_32, fnv1a_64, fnv. rewrite !fold_left_app.
  split; f_equal; [replace (fold_left _ [0xCC; 0x24; 0x31; 0xC4] _) with 0 by (vm_compute; reflexivity)|replace (fold_left _ [0xD5; 0x6B; 0xB9; 0x53; 0x42; 0x87; 0x08; 0x36] _) with 0 by (vm_compute; reflexivity)]; induction n as [|n IH]; cbn [repeat fold_left]; assumption || reflexivity.
Qed.
Print Assumptions C132_trailing_zeros_refuted.
(** A common prefix does not keep equal hashes equal, not even of texts of the same length ("declinate" and "macallums"). *)
Theorem C132_prefix_refuted : exists p a b, bytes p /\ bytes a /\ bytes b /\ length a = length b /\ fnv32 a = fnv32 b /\ fnv32 (p ++ a) <> fnv32 (p ++ b).
Proof. exists [120], [100; 101; 99; 108; 105; 110; 97; 116; 101], [109; 97; 99; 97; 108; 108; 117; 109; 115]. do 3 (split; [repeat constructor; reflexivity|]). split; [reflexivity|]. split; vm_compute; [reflexivity|discriminate]. Qed.
Print Assumptions C132_prefix_refuted.

(** *** HashCombine *)
(** Whatever is combined, two different seeds give the same result: HashCombine(x, y) loses x. *)
Theorem C132_seed_refuted : forall h, h < 2 ^ 64 -> exists s s', s < 2 ^ 64 /\ s' < 2 ^ 64 /\ s <> s' /\ HashCombine s h = HashCombine s' h.
Proof.
  intros h H. exists (N.lxor 0xfec2a7c0eece94c6 h), (N.lxor 0xd456cd253a9fba13 h). assert (L : forall x, N.lxor h (N.lxor x h) = x) by (intros x; now rewrite N.lxor_comm, N.lxor_assoc, N.lxor_nilpotent, N.lxor_0_r).
  split; [now apply lxor_lt|]. split; [now apply lxor_lt|]. split; [intros E; apply lxor_inj_r in E; discriminate|].
  unfold HashCombine. cbv zeta. rewrite !L.
  assert (K : forall x y, N.lxor (N.lxor x h) y = N.lxor h (N.lxor x y)) by (intros x y; now rewrite (N.lxor_comm x h), N.lxor_assoc). rewrite !K.
  match goal with |- context [N.lxor h (N.lxor 0xfec2a7c0eece94c6 ?y)] => replace (N.lxor 0xfec2a7c0eece94c6 y) with (N.lxor 0xd456cd253a9fba13 (N.lxor (wrap 64 (0xd456cd253a9fba13 * 0x9ddfea08eb382d69)) (N.shiftr (wrap 64 (0xd456cd253a9fba13 * 0x9ddfea08eb382d69)) 47))) by (vm_compute; reflexivity) end. reflexivity.
Qed.
Print Assumptions C132_seed_refuted.
(** So do two calls of HashCombine with several values: no choice of the values after the first tells the two apart. *)
Theorem C132_first_refuted : forall hasher x rest, (forall v, hasher v < 2 ^ 64) -> exists s s', s < 2 ^ 64 /\ s' < 2 ^ 64 /\ s <> s' /\ HashCombine_all hasher s (x :: rest) = HashCombine_all hasher s' (x :: rest).
Proof. intros hasher x rest H. cbn [HashCombine_all]. apply C132_seed_refuted, H. Qed.
Print Assumptions C132_first_refuted.
(** Where std::hash of an integer is the integer, any number of zeros combines to 0. *)
Theorem C132_zeros_refuted : forall n, HashCombine_all (fun v => v) 0 (repeat 0 n) = 0.
Proof. induction n as [|n IH]; [reflexivity|]. cbn [repeat HashCombine_all]. rewrite IH. reflexivity. Qed.
Print Assumptions C132_zeros_refuted.
(** With a std::size_t of 32 bits values are lost too. *)
Theorem C132_32_bits_refuted : (forall seed h, HashCombine_sized 64 seed h = HashCombine seed h) /\ exists seed h h', seed < 2 ^ 32 /\ h < 2 ^ 32 /\ h' < 2 ^ 32 /\ h <> h' /\ HashCombine_sized 32 seed h = HashCombine_sized 32 seed h'.
Proof.
  split; [intros seed h; unfold HashCombine_sized, HashCombine, wrap; cbv zeta; now apply N.mod_mod|].
  exists 0, 26683, 67536. repeat split; vm_compute; (reflexivity || discriminate).
Qed.
Print Assumptions C132_32_bits_refuted.
Example C132_nonvacuous : fnv32 [1; 2] <> fnv32 [1; 3] /\ fnv32 ([1; 2] ++ [9]) <> fnv32 ([1; 3] ++ [9]) /\ fnv32 [0; 1] <> fnv32 [1] /\ fnv64 [0; 1] <> fnv64 [1] /\
  HashCombine 0xfec2a7c0eece94c6 0 = HashCombine 0xd456cd253a9fba13 0.
Proof. repeat split; vm_compute; (reflexivity || discriminate). Qed.
