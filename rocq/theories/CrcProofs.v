(** The register of CRC-32 as a linear map: errors it detects, the order of its polynomial. *)
From Verif Require Import HashSpec HashModel HashProofs.
Open Scope N_scope.

Definition reg (bs : list bool) (r : N) : N := fold_left crc_bit bs r.
Lemma reg_cons b bs r : reg (b :: bs) r = reg bs (T (N.lxor r (N.b2n b))).
Proof. unfold reg. cbn [fold_left]. now rewrite crc_bit_T. Qed.
Lemma b2n_lt b : N.b2n b < 2 ^ 32.
Proof. now destruct b. Qed.
Lemma reg_lt bs : forall r, r < 2 ^ 32 -> reg bs r < 2 ^ 32.
Proof. induction bs as [|b bs IH]; intros r H; [exact H|]. rewrite reg_cons. apply IH, T_lt, lxor_lt; [exact H|apply b2n_lt]. Qed.
Lemma reg_app a b r : reg (a ++ b) r = reg b (reg a r).
Proof. apply fold_left_app. Qed.

Fixpoint xors (a b : list bool) : list bool := match a, b with x :: a, y :: b => xorb x y :: xors a b | _, _ => [] end.
Lemma xors_app : forall a b c d, length a = length c -> xors (a ++ b) (c ++ d) = xors a c ++ xors b d.
Proof. induction a as [|x a IH]; intros b [|y c] d L; try discriminate; [reflexivity|]. cbn. f_equal. apply IH. now injection L. Qed.
Lemma xors_length : forall a b, length a = length b -> length (xors a b) = length a.
Proof. induction a as [|x a IH]; intros [|y b] L; try discriminate; [reflexivity|]. cbn. f_equal. apply IH. now injection L. Qed.
Lemma xors_self a : xors a a = repeat false (length a).
Proof. induction a as [|x a IH]; [reflexivity|]. cbn. now rewrite IH, xorb_nilpotent. Qed.
Lemma xors_eq : forall a b, length a = length b -> xors a b = repeat false (length a) -> a = b.
Proof.
  induction a as [|x a IH]; intros [|y b] L E; try discriminate; [reflexivity|]. cbn in E. injection E as E1 E2. f_equal; [destruct x, y; (reflexivity || discriminate)|]. apply IH; [now injection L|exact E2].
Qed.
Lemma b2n_xor x y : N.b2n (xorb x y) = N.lxor (N.b2n x) (N.b2n y).
Proof. now destruct x, y. Qed.
Lemma reg_xors : forall a b r s, length a = length b -> reg (xors a b) (N.lxor r s) = N.lxor (reg a r) (reg b s).
Proof.
  induction a as [|x a IH]; intros [|y b] r s L; try discriminate; [reflexivity|]. cbn [xors]. rewrite !reg_cons. rewrite <- IH by now injection L. f_equal. rewrite b2n_xor, <- T_lxor. f_equal.
  rewrite !N.lxor_assoc. f_equal. rewrite <- !N.lxor_assoc. f_equal. apply N.lxor_comm.
Qed.
Lemma reg_difference a b r : length a = length b -> N.lxor (reg a r) (reg b r) = reg (xors a b) 0.
Proof. intros L. rewrite <- reg_xors by exact L. now rewrite N.lxor_nilpotent. Qed.
Lemma iter_swap n (d : N) : Nat.iter n T (T d) = T (Nat.iter n T d).
Proof. induction n as [|n IH]; [reflexivity|]. cbn. f_equal. exact IH. Qed.
Lemma reg_zeros n : forall d, reg (repeat false n) d = Nat.iter n T d.
Proof. induction n as [|n IH]; intros d; [reflexivity|]. cbn [repeat]. rewrite reg_cons, IH. cbn [N.b2n]. rewrite N.lxor_0_r. apply iter_swap. Qed.
Lemma iter_lt n : forall d, d < 2 ^ 32 -> Nat.iter n T d < 2 ^ 32.
Proof. induction n as [|n IH]; intros d H; [exact H|]. apply T_lt, IH, H. Qed.
Lemma iter_zero n d : d < 2 ^ 32 -> Nat.iter n T d = 0 -> d = 0.
Proof. intros H. induction n as [|n IH]; intros E; [exact E|]. apply IH. apply T_zero; [now apply iter_lt|exact E]. Qed.
Lemma reg_inj bs : forall r s, r < 2 ^ 32 -> s < 2 ^ 32 -> reg bs r = reg bs s -> r = s.
Proof.
  intros r s Hr Hs E. apply N.lxor_eq. apply (iter_zero (length bs)); [now apply lxor_lt|]. rewrite <- reg_zeros, <- xors_self, reg_xors, E by reflexivity. apply N.lxor_nilpotent.
Qed.

(** *** Bursts *)
Lemma T_small x n : n <= 31 -> x < 2 ^ 32 -> T x < 2 ^ n -> N.odd x = false /\ x < 2 ^ N.succ n.
Proof.
  intros L H E. assert (O : N.odd x = false).
  { destruct (N.odd x) eqn:O; [|reflexivity]. exfalso. unfold T in E. rewrite O in E. assert (B : N.testbit (N.lxor (x / 2) P) 31 = true).
    { rewrite N.lxor_spec. replace (N.testbit (x / 2) 31) with false; [reflexivity|]. symmetry. apply (proj1 (lt_pow2_bits (x / 2) 31)); [|apply N.le_refl]. apply N.div_lt_upper_bound; [discriminate|exact H]. }
    rewrite (proj1 (lt_pow2_bits _ n) E 31 L) in B. discriminate. }
  split; [exact O|]. unfold T in E. rewrite O, N.lxor_0_r in E. rewrite N.pow_succ_r'. assert (M := N.div_mod x 2 ltac:(discriminate)). assert (x mod 2 = 0) by (rewrite <- N.bit0_mod, N.bit0_odd, O; reflexivity). lia.
Qed.
Lemma vanishes e : forall d, d < 2 ^ 32 -> (length e <= 32)%nat -> reg e d = 0 -> d < 2 ^ N.of_nat (length e).
Proof.
  induction e as [|c e IH]; intros d H L E; [cbn in E; subst; reflexivity|]. rewrite reg_cons in E. cbn [length] in L.
  assert (X : N.lxor d (N.b2n c) < 2 ^ 32) by (apply lxor_lt; [exact H|apply b2n_lt]). specialize (IH _ (T_lt _ X) ltac:(lia) E).
  apply T_small in IH; [|lia|exact X]. destruct IH as (_ & B). cbn [length]. rewrite Nat2N.inj_succ.
  replace d with (N.lxor (N.lxor d (N.b2n c)) (N.b2n c)) by (now rewrite N.lxor_assoc, N.lxor_nilpotent, N.lxor_0_r). apply lxor_lt; [exact B|].
  apply N.lt_le_trans with (2 ^ 1); [now destruct c|]. apply N.pow_le_mono_r; [discriminate|lia].
Qed.
Lemma no_short_multiple e : (length e <= 32)%nat -> reg e 0 = 0 -> e = repeat false (length e).
Proof.
  induction e as [|c e IH]; intros L E; [reflexivity|]. cbn [length] in L. rewrite reg_cons, N.lxor_0_l in E. pose proof (vanishes e _ (T_lt _ (b2n_lt c)) ltac:(lia) E) as V.
  destruct c.
  - exfalso. change (T (N.b2n true)) with P in V. assert (2 ^ N.of_nat (length e) <= 2 ^ 31) by (apply N.pow_le_mono_r; [discriminate|lia]). assert (2 ^ 31 < P) by reflexivity. lia.
  - change (T (N.b2n false)) with 0 in E. cbn [length repeat]. f_equal. apply IH; [lia|exact E].
Qed.

(** *** The order of x modulo the polynomial *)
Definition linear (F : N -> N) : Prop := forall x y, F (N.lxor x y) = N.lxor (F x) (F y).
Fixpoint apply (M : list N) (v : N) : N := match M with [] => 0 | c :: M => N.lxor (if N.odd v then c else 0) (apply M (v / 2)) end.
Lemma linear_0 F : linear F -> F 0 = 0.
Proof. intros L. change 0 with (N.lxor 0 0) at 1. rewrite L. apply N.lxor_nilpotent. Qed.
Lemma apply_linear M : forall F v, linear F -> (forall i, (i < length M)%nat -> nth i M 0 = F (2 ^ N.of_nat i)) -> v < 2 ^ N.of_nat (length M) -> apply M v = F v.
Proof.
  induction M as [|c M IH]; intros F v L C H.
  - cbn in H. assert (v = 0) by lia. subst. cbn. symmetry. now apply linear_0.
  - cbn [apply]. rewrite (IH (fun x => F (2 * x))).
    + replace (if N.odd v then c else 0) with (F (N.b2n (N.odd v))).
      * rewrite <- L. f_equal. rewrite <- low_bit, N.bit0_odd, (N.lxor_comm v), <- N.lxor_assoc, N.lxor_nilpotent. apply N.lxor_0_l.
      * destruct (N.odd v); cbn [N.b2n]; [|now apply linear_0]. symmetry. exact (C 0%nat ltac:(cbn; lia)).
    + intros x y. rewrite <- L. f_equal. rewrite !double_shift. apply N.shiftl_lxor.
    + intros i Hi. specialize (C (S i) ltac:(cbn; lia)). cbn [nth] in C. rewrite C. f_equal. rewrite Nat2N.inj_succ, N.pow_succ_r'. reflexivity.
    + cbn [length] in H. rewrite Nat2N.inj_succ, N.pow_succ_r' in H. apply N.div_lt_upper_bound; [discriminate|exact H].
Qed.
(** [M] lists the images of the bits under the linear map [F] on 32 bits. *)
Definition matrix (M : list N) (F : N -> N) : Prop := linear F /\ (forall x, x < 2 ^ 32 -> F x < 2 ^ 32) /\ length M = 32%nat /\ forall i, (i < 32)%nat -> nth i M 0 = F (2 ^ N.of_nat i).
Lemma matrix_apply M F v : matrix M F -> v < 2 ^ 32 -> apply M v = F v.
Proof. intros (L & _ & E & C) H. apply apply_linear; [exact L|now rewrite E|now rewrite E]. Qed.
Definition square (M : list N) : list N := map (apply M) M.
Lemma matrix_square M F : matrix M F -> matrix (square M) (fun x => F (F x)).
Proof.
  intros H. pose proof H as (L & B & E & C). split; [intros x y; now rewrite !L|]. split; [auto|]. split; [unfold square; now rewrite map_length|]. intros i Hi. unfold square.
  assert (W : 2 ^ N.of_nat i < 2 ^ 32) by (apply N.pow_lt_mono_r; [reflexivity|lia]).
  rewrite (nth_indep _ 0 (apply M 0)) by (rewrite map_length; lia). rewrite map_nth, C by exact Hi. apply matrix_apply; auto.
Qed.
Fixpoint power (p : positive) (M : list N) (v : N) : N :=
  match p with
  | xH => apply M v
  | xO q => power q (square M) v
  | xI q => apply M (power q (square M) v)
  end.
Lemma iter_twice (F : N -> N) q v : Pos.iter (fun x => F (F x)) v q = Pos.iter F v (q~0).
Proof. cbn [Pos.iter]. rewrite <- Pos.iter_add, Pos.add_diag. revert v. induction q as [|q IH] using Pos.peano_ind; intros v; [reflexivity|]. rewrite Pos.iter_succ, IH. replace (Pos.succ q)~0%positive with (Pos.succ (Pos.succ q~0)) by lia. now rewrite !Pos.iter_succ. Qed.
Lemma iter_bound (F : N -> N) (B : forall x, x < 2 ^ 32 -> F x < 2 ^ 32) q v : v < 2 ^ 32 -> Pos.iter F v q < 2 ^ 32.
Proof. intros H. apply Pos.iter_invariant; auto. Qed.
Lemma power_iter p : forall M F v, matrix M F -> v < 2 ^ 32 -> power p M v = Pos.iter F v p.
Proof.
  induction p as [p IH|p IH|]; intros M F v H W; cbn [power].
  - rewrite (IH _ _ _ (matrix_square M F H) W). rewrite (matrix_apply M F); [|exact H|apply iter_bound; [|exact W]; destruct H as (_ & B & _); auto]. rewrite iter_twice. replace (p~1)%positive with (Pos.succ p~0) by lia. now rewrite Pos.iter_succ.
  - rewrite (IH _ _ _ (matrix_square M F H) W). apply iter_twice.
  - cbn [Pos.iter]. now apply matrix_apply.
Qed.
Definition MT : list N := map (fun i => T (2 ^ N.of_nat i)) (seq 0 32).
Lemma matrix_T : matrix MT T.
Proof.
  split; [exact T_lxor|]. split; [exact T_lt|]. split; [reflexivity|]. intros i Hi. unfold MT. rewrite (nth_indep _ 0 (T (2 ^ N.of_nat 0))) by (rewrite map_length, seq_length; exact Hi).
  rewrite (map_nth (fun i => T (2 ^ N.of_nat i)) (seq 0 32) 0%nat i). now rewrite seq_nth.
Qed.

(** T^n fixes 1. *)
Definition fixes (n : N) : Prop := N.iter n T 1 = 1.
Definition fixes_pos (p : positive) : bool := power p MT 1 =? 1.
Lemma fixes_pos_spec p : fixes_pos p = true <-> fixes (Npos p).
Proof. unfold fixes_pos, fixes. rewrite (power_iter p MT T 1 matrix_T eq_refl). cbn [N.iter]. apply N.eqb_eq. Qed.
Lemma fixes_add a b : fixes b -> (fixes (a + b) <-> fixes a).
Proof. intros F. unfold fixes. now rewrite N.iter_add, F. Qed.
Lemma fixes_mul a q : fixes a -> fixes (a * q).
Proof. intros F. induction q as [|q IH] using N.peano_ind; [now rewrite N.mul_0_r|]. rewrite N.mul_succ_r, fixes_add; assumption. Qed.
Lemma fixes_mod a b : b <> 0 -> fixes a -> fixes b -> fixes (a mod b).
Proof. intros Z A B. rewrite (N.div_mod a b Z), N.add_comm in A. apply fixes_add in A; [exact A|]. now apply fixes_mul. Qed.
Lemma fixes_gcd b : forall a, fixes a -> fixes b -> fixes (N.gcd a b).
Proof.
  induction b as [b IH] using (well_founded_induction N.lt_wf_0). intros a A B. destruct (N.eq_dec b 0) as [->|Z]; [now rewrite N.gcd_0_r|].
  rewrite N.gcd_comm, <- N.gcd_mod, N.gcd_comm by exact Z. apply IH; [now apply N.mod_lt|exact B|now apply fixes_mod].
Qed.
Lemma no_divisor p b : 0 < p -> p < (b + 1) * (b + 1) -> forallb (fun k => negb (p mod k =? 0)) (map N.of_nat (seq 2 (N.to_nat b - 1))) = true -> forall g, (g | p) -> g = 1 \/ g = p.
Proof.
  intros PZ L F.
  assert (NO : forall k, 2 <= k <= b -> ~ (k | p)).
  { intros k K D. pose proof (proj1 (forallb_forall _ _) F k) as Q. assert (I : In k (map N.of_nat (seq 2 (N.to_nat b - 1)))) by (apply in_map_iff; exists (N.to_nat k); split; [apply N2Nat.id|apply in_seq; lia]).
    specialize (Q I). cbv beta in Q. apply N.mod_divide in D; [|lia]. rewrite D in Q. discriminate. }
  intros g (h & E). destruct (N.lt_ge_cases g 2) as [G|G]; [left; destruct (N.eq_dec g 0) as [->|]; [|lia]; rewrite N.mul_0_r in E; lia|].
  destruct (N.lt_ge_cases h 2) as [H|H]; [right; destruct (N.eq_dec h 0) as [->|]; [rewrite N.mul_0_l in E; lia|]; assert (h = 1) by lia; subst h; lia|]. exfalso.
  destruct (N.le_gt_cases g b) as [Gb|Gb]; [apply (NO g); [lia|now exists h]|]. destruct (N.le_gt_cases h b) as [Hb|Hb]; [apply (NO h); [lia|exists g; lia]|]. nia.
Qed.
Lemma coprime_or p m : (forall g, (g | p) -> g = 1 \/ g = p) -> N.gcd m p = 1 \/ (p | m).
Proof. intros H. destruct (H (N.gcd m p) (N.gcd_divide_r _ _)) as [E|E]; [now left|right]. rewrite <- E. apply N.gcd_divide_l. Qed.
Definition full : N := 2 ^ 32 - 1.
Lemma factor m : (m | full) -> m = 1 \/ (3 | m) \/ (5 | m) \/ (17 | m) \/ (257 | m) \/ (65537 | m).
Proof.
  intros D.
  destruct (coprime_or 3 m) as [C3|C3]; [apply (no_divisor 3 1); reflexivity| |tauto].
  destruct (coprime_or 5 m) as [C5|C5]; [apply (no_divisor 5 2); reflexivity| |tauto].
  destruct (coprime_or 17 m) as [C17|C17]; [apply (no_divisor 17 4); reflexivity| |tauto].
  destruct (coprime_or 257 m) as [C257|C257]; [apply (no_divisor 257 16); reflexivity| |tauto].
  destruct (coprime_or 65537 m) as [C65537|C65537]; [apply (no_divisor 65537 256); reflexivity| |tauto].
  left. change full with (3 * (5 * (17 * (257 * (65537 * 1))))) in D.
  apply N.gauss in D; [|exact C3]. apply N.gauss in D; [|exact C5]. apply N.gauss in D; [|exact C17]. apply N.gauss in D; [|exact C257]. apply N.gauss in D; [|exact C65537]. now apply N.divide_1_r.
Qed.
Lemma fixes_full : fixes full.
Proof. apply (proj1 (fixes_pos_spec 4294967295)). vm_compute. reflexivity. Qed.
Lemma not_fixes p : fixes_pos p = false -> ~ fixes (Npos p).
Proof. intros E F. apply fixes_pos_spec in F. congruence. Qed.
Theorem order n : fixes n <-> (full | n).
Proof.
  split; [|intros (q & ->); rewrite N.mul_comm; apply fixes_mul, fixes_full]. intros F. set (g := N.gcd n full).
  assert (G : fixes g) by (apply fixes_gcd; [exact F|exact fixes_full]). assert (D : (g | full)) by apply N.gcd_divide_r. destruct D as (m & E).
  assert (Q : forall p k, full = k * p -> 0 < p -> (p | m) -> fixes k).
  { intros p k K Z (j & ->). replace k with (g * j); [now apply fixes_mul|]. apply (N.mul_cancel_r _ _ p); [lia|]. rewrite <- K, E. lia. }
  destruct (factor m) as [M|[M|[M|[M|[M|M]]]]]; [exists g; rewrite E; lia| | | | | |].
  - subst m. rewrite N.mul_1_l in E. rewrite E. apply N.gcd_divide_l.
  - exfalso. apply (not_fixes 1431655765); [vm_compute; reflexivity|]. now apply (Q 3).
  - exfalso. apply (not_fixes 858993459); [vm_compute; reflexivity|]. now apply (Q 5).
  - exfalso. apply (not_fixes 252645135); [vm_compute; reflexivity|]. now apply (Q 17).
  - exfalso. apply (not_fixes 16711935); [vm_compute; reflexivity|]. now apply (Q 257).
  - exfalso. apply (not_fixes 65535); [vm_compute; reflexivity|]. now apply (Q 65537).
Qed.
Lemma iter_nat_N n (x : N) : Nat.iter n T x = N.iter (N.of_nat n) T x.
Proof. induction n as [|n IH]; [reflexivity|]. rewrite Nat2N.inj_succ, N.iter_succ, <- IH. reflexivity. Qed.

(** *** Four bytes *)
Lemma T_iter_lxor n : forall x y, Nat.iter n T (N.lxor x y) = N.lxor (Nat.iter n T x) (Nat.iter n T y).
Proof. induction n as [|n IH]; intros x y; [reflexivity|]. cbn [Nat.iter nat_rect]. unfold Nat.iter in IH. now rewrite IH, T_lxor. Qed.
Definition T_inverse (y : N) : N := if N.testbit y 31 then N.lxor (2 * N.lxor y P) 1 else 2 * y.
Lemma T_inverse_lt y : y < 2 ^ 32 -> T_inverse y < 2 ^ 32.
Proof.
  intros H. unfold T_inverse. assert (K : forall z, z < 2 ^ 32 -> N.testbit z 31 = false -> 2 * z < 2 ^ 32).
  { intros z Z B. rewrite double_shift. apply lt_pow2_bits. intros k L. rewrite N.shiftl_spec_high' by lia. destruct (N.eq_dec k 32) as [->|D]; [exact B|]. apply (proj1 (lt_pow2_bits z 32) Z). lia. }
  destruct (N.testbit y 31) eqn:B; [|now apply K]. apply lxor_lt; [|reflexivity]. apply K; [apply lxor_lt; [exact H|reflexivity]|]. rewrite N.lxor_spec, B. reflexivity.
Qed.
Lemma T_inverse_spec y : T (T_inverse y) = y.
Proof. unfold T_inverse. destruct (N.testbit y 31); [|apply T_double]. rewrite T_lxor, T_double. change (T 1) with P. now rewrite N.lxor_assoc, N.lxor_nilpotent, N.lxor_0_r. Qed.
