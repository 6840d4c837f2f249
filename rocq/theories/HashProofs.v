From Verif Require Import HashSpec HashModel.
Open Scope N_scope.

(** *** Bits *)
Lemma lt_pow2_bits x n : x < 2 ^ n <-> forall k, n <= k -> N.testbit x k = false.
Proof.
  split.
  - intros H k Hk. destruct (N.eq_dec x 0) as [->|D]; [apply N.bits_0|]. apply N.bits_above_log2. apply N.lt_le_trans with n; [|exact Hk]. apply N.log2_lt_pow2; [lia | exact H].
  - intros H. destruct (N.eq_dec x 0) as [->|D]; [apply N.neq_0_lt_0, N.pow_nonzero; discriminate|]. apply N.log2_lt_pow2; [lia|]. destruct (N.lt_ge_cases (N.log2 x) n) as [L|L]; [exact L|]. specialize (H _ L). rewrite N.bit_log2 in H by exact D. discriminate.
Qed.
Lemma lxor_lt x y n : x < 2 ^ n -> y < 2 ^ n -> N.lxor x y < 2 ^ n.
Proof. rewrite !lt_pow2_bits. intros H K k Hk. rewrite N.lxor_spec, H, K by exact Hk. reflexivity. Qed.
Lemma lxor_inj_l a x y : N.lxor a x = N.lxor a y -> x = y.
Proof. intros H. apply (f_equal (N.lxor a)) in H. now rewrite <- !N.lxor_assoc, N.lxor_nilpotent, !N.lxor_0_l in H. Qed.
Lemma lxor_inj_r a x y : N.lxor x a = N.lxor y a -> x = y.
Proof. rewrite !(N.lxor_comm _ a). apply lxor_inj_l. Qed.
Lemma double_shift y : 2 * y = N.shiftl y 1.
Proof. rewrite N.shiftl_mul_pow2. lia. Qed.
Lemma mod_lt x n : x mod 2 ^ n < 2 ^ n.
Proof. apply N.mod_lt, N.pow_nonzero. discriminate. Qed.

(** *** CRC *)
Definition P : N := 0xEDB88320.
Definition T (x : N) : N := N.lxor (x / 2) (if N.odd x then P else 0).
Lemma iteration_T x : crc_iteration P x = T x.
Proof.
  unfold crc_iteration, T. rewrite <- N.div2_spec, N.div2_div. change 1 with (N.ones 1) at 1. rewrite N.land_ones. change (2 ^ 1) with 2. f_equal. rewrite <- N.bit0_mod, N.bit0_odd. destruct (N.odd x); reflexivity.
Qed.
Lemma div2_lxor x y : N.lxor x y / 2 = N.lxor (x / 2) (y / 2).
Proof. rewrite <- !N.div2_div, !N.div2_spec. apply N.shiftr_lxor. Qed.
Lemma odd_lxor x y : N.odd (N.lxor x y) = xorb (N.odd x) (N.odd y).
Proof. rewrite <- !N.bit0_odd. apply N.lxor_spec. Qed.
Lemma T_lxor x y : T (N.lxor x y) = N.lxor (T x) (T y).
Proof.
  unfold T. rewrite div2_lxor, odd_lxor. rewrite !N.lxor_assoc. f_equal. rewrite (N.lxor_comm _ (N.lxor (y / 2) _)), !N.lxor_assoc. f_equal. destruct (N.odd x), (N.odd y); reflexivity.
Qed.
Lemma T_double y : T (2 * y) = y.
Proof. unfold T. rewrite N.odd_mul. change (N.odd 2) with false. cbn [andb]. rewrite N.lxor_0_r, (N.mul_comm 2). apply N.div_mul. discriminate. Qed.
Lemma crc_bit_T r bit : crc_bit r bit = T (N.lxor r (N.b2n bit)).
Proof.
  unfold crc_bit, T. rewrite div2_lxor, odd_lxor. destruct bit; cbn [N.b2n]; change (N.odd 1) with true; change (N.odd 0) with false; change (1 / 2) with 0; change (0 / 2) with 0; rewrite N.lxor_0_r; destruct (xorb _ _); try reflexivity; symmetry; apply N.lxor_0_r.
Qed.
Definition T8 (x : N) : N := T (T (T (T (T (T (T (T x))))))).
Lemma T8_lxor x y : T8 (N.lxor x y) = N.lxor (T8 x) (T8 y).
Proof. unfold T8. now rewrite !T_lxor. Qed.
Lemma T8_shift y : T8 (N.shiftl y 8) = y.
Proof.
  unfold T8. assert (H : forall n, T (N.shiftl y (N.succ n)) = N.shiftl y n) by (intros n; rewrite N.shiftl_succ_r, N.double_spec; apply T_double).
  change 8 with (N.succ 7). rewrite H. change 7 with (N.succ 6). rewrite H. change 6 with (N.succ 5). rewrite H. change 5 with (N.succ 4). rewrite H. change 4 with (N.succ 3). rewrite H. change 3 with (N.succ 2). rewrite H. change 2 with (N.succ 1). rewrite H. change 1 with (N.succ 0). rewrite H. apply N.shiftl_0_r.
Qed.
Lemma entry_T8 b : crc_entry P b = T8 b.
Proof. unfold crc_entry. change (range 0 8) with [0; 1; 2; 3; 4; 5; 6; 7]%nat. cbn [fold_left]. unfold T8. now rewrite !iteration_T. Qed.

Lemma table_entries : forallb (fun i => match vget s_crc32Table i with Done t => t =? crc_entry P (N.of_nat i) | Fault _ => false end) (range 0 256) = true.
Proof. vm_compute. reflexivity. Qed.
Lemma table_lookup i : i < 256 -> vget s_crc32Table (N.to_nat i) = Done (T8 i).
Proof.
  intros H. pose proof (proj1 (forallb_forall _ _) table_entries (N.to_nat i)) as K. assert (HI : In (N.to_nat i) (range 0 256)) by (unfold range; apply in_seq; lia). specialize (K HI). cbv beta in K. destruct (vget s_crc32Table (N.to_nat i)) as [t|]; [|discriminate K]. apply N.eqb_eq in K. rewrite K, N2Nat.id. now rewrite entry_T8.
Qed.
Lemma land_255 x n : N.testbit (N.land x 255) n = if n <? 8 then N.testbit x n else false.
Proof. rewrite N.land_spec. change 255 with (N.ones 8). destruct (N.ltb_spec n 8); [rewrite N.ones_spec_low, andb_true_r by assumption; reflexivity | rewrite N.ones_spec_high, andb_false_r by assumption; reflexivity]. Qed.
Lemma crc_step_T8 crc c b : b < 256 -> N.land c 255 = b -> crc_step crc c = Done (T8 (N.lxor crc b)).
Proof.
  intros H E. unfold crc_step. assert (LT : N.land (N.lxor crc c) 255 < 256) by (change 256 with (2 ^ 8); apply lt_pow2_bits; intros k Hk; rewrite land_255; now replace (k <? 8) with false by (symmetry; apply N.ltb_ge; exact Hk)).
  rewrite table_lookup by exact LT. cbn [bind]. f_equal. rewrite <- (T8_shift (N.shiftr crc 8)) at 1. rewrite <- T8_lxor. f_equal. apply N.bits_inj. intros n. rewrite !N.lxor_spec, land_255, N.lxor_spec, <- E, land_255. destruct (N.ltb_spec n 8) as [L|L].
  - rewrite N.shiftl_spec_low by exact L. now rewrite xorb_false_r.
  - rewrite N.shiftl_spec_high', N.shiftr_spec' by exact L. replace (n - 8 + 8) with n by lia. now rewrite xorb_false_l, xorb_false_r.
Qed.

(** The bits of a byte entering one by one. *)
Lemma low_bit x : N.lxor x (N.b2n (N.testbit x 0)) = 2 * (x / 2).
Proof.
  apply N.bits_inj. intros n. rewrite N.lxor_spec. destruct (N.eq_dec n 0) as [->|D].
  - rewrite N.b2n_bit0, N.testbit_even_0. destruct (N.testbit x 0); reflexivity.
  - replace n with (N.succ (N.pred n)) by lia. rewrite N.testbit_even_succ by lia. rewrite N.div2_bits. replace (N.testbit (N.b2n (N.testbit x 0)) (N.succ (N.pred n))) with false; [apply xorb_false_r|]. destruct (N.testbit x 0); cbn [N.b2n]; [|symmetry; apply N.bits_0]. symmetry. apply (proj1 (lt_pow2_bits 1 1)); [reflexivity | lia].
Qed.
Lemma bit_enters u b k : crc_bit (N.lxor u (N.shiftr b k)) (N.testbit b k) = N.lxor (T u) (N.shiftr b (N.succ k)).
Proof.
  rewrite crc_bit_T, N.lxor_assoc. replace (N.testbit b k) with (N.testbit (N.shiftr b k) 0) by (rewrite N.shiftr_spec'; f_equal; lia). rewrite low_bit, T_lxor, T_double. f_equal. rewrite N.shiftr_succ_r. now rewrite N.div2_div.
Qed.
Lemma byte_enters r b : b < 256 -> fold_left crc_bit (bits_of b) r = T8 (N.lxor r b).
Proof.
  intros H. unfold bits_of. cbn [map fold_left]. assert (E0 : r = N.lxor (N.lxor r b) (N.shiftr b 0)) by (now rewrite N.shiftr_0_r, N.lxor_assoc, N.lxor_nilpotent, N.lxor_0_r). rewrite E0 at 1. rewrite !bit_enters.
  replace (N.shiftr b (N.succ 7)) with 0; [now rewrite N.lxor_0_r|]. symmetry. rewrite N.shiftr_div_pow2. apply N.div_small. exact H.
Qed.

(** *** Loops *)
Lemma over_array_fold f g m size s : (size <= length m)%nat -> (forall s b, In b m -> f s b = Done (g s b)) -> over_array f m size s = Done (fold_left g (firstn size m) s).
Proof.
  intros HL HF. unfold over_array. destruct (foreach_range (fun i s' => s' = fold_left g (firstn i m) s) (fun s i => b <- vget m i ;; f s b) 0 size s) as (s' & E & ->); [lia | reflexivity | | exact E].
  intros i s1 Hi ->. assert (HM : (i < length m)%nat) by lia. destruct (nth_error m i) as [b|] eqn:EB; [|apply nth_error_None in EB; lia]. unfold vget. rewrite EB. cbn [bind]. rewrite HF by exact (nth_error_In _ _ EB). eexists. split; [reflexivity|].
  destruct (nth_error_split _ _ EB) as (A & B & -> & HA). replace (i + 1)%nat with (length A + 1)%nat by lia. rewrite <- HA. rewrite firstn_app_2, firstn_app, Nat.sub_diag, firstn_O, app_nil_r, firstn_all. cbn [firstn]. now rewrite fold_left_app.
Qed.
Lemma over_cstring_fold f g text rest : forall s, Forall (fun b => b <> 0) text -> (forall s b, In b text -> f s b = Done (g s b)) -> over_cstring f (text ++ 0 :: rest) s = Done (fold_left g text s).
Proof.
  induction text as [|b text IH]; intros s H HF; cbn [app over_cstring fold_left]; [reflexivity|]. inversion H as [|? ? HB HR]; subst. replace (b =? 0) with false by (symmetry; now apply N.eqb_neq). rewrite HF by (now left). cbn [bind]. apply IH; [exact HR|]. intros s' b' HI. apply HF. now right.
Qed.
Lemma over_cstring_runaway f m : forall s, Forall (fun b => b <> 0) m -> (forall s b, is_done (f s b) = true) -> over_cstring f m s = Fault FUB.
Proof.
  induction m as [|b m IH]; intros s H HF; cbn [over_cstring]; [reflexivity|]. inversion H as [|? ? HB HR]; subst. replace (b =? 0) with false by (symmetry; now apply N.eqb_neq). specialize (HF s b) as E. destruct (f s b); [|discriminate]. now apply IH.
Qed.

Lemma char_low sc w b : 8 <= w -> b < 256 -> N.land (char_to sc w b) 255 = b.
Proof.
  intros HW HB. change 255 with (N.ones 8). rewrite N.land_ones. unfold char_to. destruct (sc && (128 <=? b)) eqn:E; [|apply N.mod_small; exact HB]. apply andb_true_iff in E. destruct E as (_ & E). apply N.leb_le in E. unfold wrap.
  assert (PW : 2 ^ w = 2 ^ (w - 8) * 256) by (change 256 with (2 ^ 8); rewrite <- N.pow_add_r; f_equal; lia). assert (P1 : 1 <= 2 ^ (w - 8)) by (apply N.neq_0_lt_0 in HW || idtac; assert (2 ^ (w - 8) <> 0) by (apply N.pow_nonzero; discriminate); lia).
  rewrite (N.mod_small _ (2 ^ w)) by lia. rewrite PW. change (2 ^ 8) with 256. replace (2 ^ (w - 8) * 256 + b - 256) with (b + (2 ^ (w - 8) - 1) * 256) by lia. rewrite N.mod_add by discriminate. now apply N.mod_small.
Qed.
Lemma char_plain sc w b : sc = false \/ b < 128 -> char_to sc w b = b.
Proof. intros [-> |H]; unfold char_to; [reflexivity|]. replace (128 <=? b) with false by (symmetry; apply N.leb_gt; exact H). now rewrite andb_false_r. Qed.

Lemma crc_fold l : bytes l -> forall r, fold_left crc_bit (concat (map bits_of l)) r = fold_left (fun r b => T8 (N.lxor r b)) l r.
Proof. induction 1 as [|b l HB HL IH]; intros r; [reflexivity|]. cbn [map concat]. rewrite fold_left_app, byte_enters by exact HB. apply IH. Qed.

(** *** Injectivity *)
Lemma T_lt x : x < 2 ^ 32 -> T x < 2 ^ 32.
Proof. intros H. unfold T. apply lxor_lt; [|destruct (N.odd x); reflexivity]. apply N.le_lt_trans with x; [|exact H]. apply N.div_le_upper_bound; lia. Qed.
Lemma T_zero x : x < 2 ^ 32 -> T x = 0 -> x = 0.
Proof.
  intros H E. unfold T in E. destruct (N.odd x) eqn:O.
  - exfalso. apply N.lxor_eq in E. assert (x / 2 < 2 ^ 31) by (apply N.div_lt_upper_bound; [discriminate | exact H]). rewrite E in H0. vm_compute in H0. discriminate.
  - rewrite N.lxor_0_r in E. apply N.div_small_iff in E; [|discriminate]. destruct (N.eq_dec x 0) as [|D]; [assumption|]. assert (x = 1) by lia. subst. discriminate.
Qed.
Lemma T_inj x y : x < 2 ^ 32 -> y < 2 ^ 32 -> T x = T y -> x = y.
Proof. intros HX HY E. apply N.lxor_eq. apply T_zero; [now apply lxor_lt|]. now rewrite T_lxor, E, N.lxor_nilpotent. Qed.
Lemma T8_lt x : x < 2 ^ 32 -> T8 x < 2 ^ 32.
Proof. intros H. unfold T8. now do 8 apply T_lt. Qed.
Lemma T8_inj x y : x < 2 ^ 32 -> y < 2 ^ 32 -> T8 x = T8 y -> x = y.
Proof. intros HX HY E. unfold T8 in E. do 8 (apply T_inj in E; [|repeat apply T_lt; assumption | repeat apply T_lt; assumption]). exact E. Qed.

Section Injective.
(** A fold of steps that keep different states different. *)
Variables (g : N -> N -> N) (w : N).
Hypothesis g_lt : forall h b, h < 2 ^ w -> b < 256 -> g h b < 2 ^ w.
Hypothesis g_inj : forall h h' b, h < 2 ^ w -> h' < 2 ^ w -> b < 256 -> g h b = g h' b -> h = h'.
Hypothesis g_byte : forall h b b', h < 2 ^ w -> b < 256 -> b' < 256 -> g h b = g h b' -> b = b'.
Lemma fold_lt l : bytes l -> forall h, h < 2 ^ w -> fold_left g l h < 2 ^ w.
Proof. induction 1 as [|b l HB HL IH]; intros h H; [exact H|]. apply IH. now apply g_lt. Qed.
Lemma fold_inj l : bytes l -> forall h h', h < 2 ^ w -> h' < 2 ^ w -> fold_left g l h = fold_left g l h' -> h = h'.
Proof. induction 1 as [|b l HB HL IH]; intros h h' H H' E; [exact E|]. cbn [fold_left] in E. apply (g_inj _ _ b H H' HB). apply IH; auto. Qed.
Lemma change_byte l b b' r h : bytes l -> bytes r -> b < 256 -> b' < 256 -> h < 2 ^ w -> b <> b' -> fold_left g (l ++ b :: r) h <> fold_left g (l ++ b' :: r) h.
Proof.
  intros HL HR HB HB' Hh D E. rewrite !fold_left_app in E. cbn [fold_left] in E. assert (K : fold_left g l h < 2 ^ w) by now apply fold_lt. apply fold_inj in E; [|exact HR | now apply g_lt | now apply g_lt]. apply D. exact (g_byte _ _ _ K HB HB' E).
Qed.
End Injective.

Lemma mul_odd_inj w k inv x y : k * inv mod 2 ^ w = 1 -> x < 2 ^ w -> y < 2 ^ w -> x * k mod 2 ^ w = y * k mod 2 ^ w -> x = y.
Proof.
  intros HK HX HY E. assert (NZ : 2 ^ w <> 0) by (apply N.pow_nonzero; discriminate). assert (R : forall z, z < 2 ^ w -> (z * k mod 2 ^ w) * inv mod 2 ^ w = z).
  { intros z HZ. rewrite N.mul_mod_idemp_l by exact NZ. rewrite <- N.mul_assoc, <- N.mul_mod_idemp_r by exact NZ. rewrite HK, N.mul_1_r. now apply N.mod_small. }
  rewrite <- (R x HX), <- (R y HY). now rewrite E.
Qed.
Lemma byte_lt b w : 8 <= w -> b < 256 -> b < 2 ^ w.
Proof. intros HW H. apply N.lt_le_trans with (2 ^ 8); [exact H|]. apply N.pow_le_mono_r; [discriminate | exact HW]. Qed.

Definition crc_g (r b : N) : N := T8 (N.lxor r b).
Lemma crc_g_lt h b : h < 2 ^ 32 -> b < 256 -> crc_g h b < 2 ^ 32.
Proof. intros H HB. apply T8_lt, lxor_lt; [exact H | apply byte_lt; [discriminate | exact HB]]. Qed.
Lemma crc_g_inj h h' b : h < 2 ^ 32 -> h' < 2 ^ 32 -> b < 256 -> crc_g h b = crc_g h' b -> h = h'.
Proof. intros H H' HB E. assert (b < 2 ^ 32) by (apply byte_lt; [discriminate | exact HB]). apply T8_inj in E; [exact (lxor_inj_r b _ _ E) | now apply lxor_lt | now apply lxor_lt]. Qed.
Lemma crc_g_byte h b b' : h < 2 ^ 32 -> b < 256 -> b' < 256 -> crc_g h b = crc_g h b' -> b = b'.
Proof. intros H HB HB' E. assert (b < 2 ^ 32) by (apply byte_lt; [discriminate | exact HB]). assert (b' < 2 ^ 32) by (apply byte_lt; [discriminate | exact HB']). apply T8_inj in E; [exact (lxor_inj_l h _ _ E) | now apply lxor_lt | now apply lxor_lt]. Qed.

Section Fnv.
Variables (prime inv w : N).
Hypothesis w8 : 8 <= w.
Hypothesis invertible : prime * inv mod 2 ^ w = 1.
Definition fnv_g (h b : N) : N := N.lxor h b * prime mod 2 ^ w.
Lemma fnv_g_lt h b : h < 2 ^ w -> b < 256 -> fnv_g h b < 2 ^ w.
Proof. intros _ _. apply mod_lt. Qed.
Lemma fnv_any_inj h c h' c' : h < 2 ^ w -> c < 2 ^ w -> h' < 2 ^ w -> c' < 2 ^ w -> fnv_g h c = fnv_g h' c' -> N.lxor h c = N.lxor h' c'.
Proof. intros. eapply mul_odd_inj; [exact invertible | now apply lxor_lt | now apply lxor_lt | assumption]. Qed.
Lemma fnv_g_inj h h' b : h < 2 ^ w -> h' < 2 ^ w -> b < 256 -> fnv_g h b = fnv_g h' b -> h = h'.
Proof. intros H H' HB E. pose proof (byte_lt b w w8 HB). apply fnv_any_inj in E; auto. exact (lxor_inj_r b _ _ E). Qed.
Lemma fnv_g_byte h b b' : h < 2 ^ w -> b < 256 -> b' < 256 -> fnv_g h b = fnv_g h b' -> b = b'.
Proof. intros H HB HB' E. pose proof (byte_lt b w w8 HB). pose proof (byte_lt b' w w8 HB'). apply fnv_any_inj in E; auto. exact (lxor_inj_l h _ _ E). Qed.
End Fnv.

(** *** HashCombine *)
Lemma fold_47_inj x y : x < 2 ^ 64 -> y < 2 ^ 64 -> N.lxor x (N.shiftr x 47) = N.lxor y (N.shiftr y 47) -> x = y.
Proof.
  assert (R : forall z, z < 2 ^ 64 -> N.lxor (N.lxor z (N.shiftr z 47)) (N.shiftr (N.lxor z (N.shiftr z 47)) 47) = z).
  { intros z HZ. rewrite N.shiftr_lxor, N.shiftr_shiftr. replace (N.shiftr z (47 + 47)) with 0; [now rewrite N.lxor_0_r, N.lxor_assoc, N.lxor_nilpotent, N.lxor_0_r|]. symmetry. rewrite N.shiftr_div_pow2. apply N.div_small. apply N.lt_le_trans with (2 ^ 64); [exact HZ | apply N.pow_le_mono_r; discriminate]. }
  intros HX HY E. rewrite <- (R x HX), <- (R y HY). now rewrite E.
Qed.
Lemma fold_47_lt x : x < 2 ^ 64 -> N.lxor x (N.shiftr x 47) < 2 ^ 64.
Proof. intros H. apply lxor_lt; [exact H|]. rewrite N.shiftr_div_pow2. apply N.le_lt_trans with x; [|exact H]. apply N.div_le_upper_bound; [discriminate|]. change (2 ^ 47) with 140737488355328. lia. Qed.
Lemma combine_lt seed h : HashCombine seed h < 2 ^ 64.
Proof. apply mod_lt. Qed.
Lemma combine_inj seed h h' : seed < 2 ^ 64 -> h < 2 ^ 64 -> h' < 2 ^ 64 -> HashCombine seed h = HashCombine seed h' -> h = h'.
Proof.
  intros HS H H' E. unfold HashCombine, wrap in E. set (k := 0x9ddfea08eb382d69) in *. assert (KI : k * 15877131476434367193 mod 2 ^ 64 = 1) by reflexivity.
  apply (mul_odd_inj _ _ _ _ _ KI) in E; [|apply fold_47_lt, mod_lt | apply fold_47_lt, mod_lt]. apply fold_47_inj in E; [|apply mod_lt | apply mod_lt].
  apply (mul_odd_inj _ _ _ _ _ KI) in E; [|apply lxor_lt; [exact HS | apply fold_47_lt, mod_lt] | apply lxor_lt; [exact HS | apply fold_47_lt, mod_lt]]. apply lxor_inj_l in E. apply fold_47_inj in E; [|apply mod_lt | apply mod_lt].
  apply (mul_odd_inj _ _ _ _ _ KI) in E; [|apply lxor_lt; assumption | apply lxor_lt; assumption]. exact (lxor_inj_r _ _ _ E).
Qed.
