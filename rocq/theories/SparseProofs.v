(** Proofs about SparseModel.v. *)
From Verif Require Import Base CInt MathProofs SparseModel.
Open Scope Z_scope.

(** The product of the index and the stride is representable in the type the multiplication is done in. *)
Definition fits (t : ity) (n s : Z) : Prop := in_range (promote t) (n * s) = true.

Lemma promote_range t z : In t int_types -> in_range t z = true -> in_range (promote t) z = true.
Proof.
  intros Ht H. cbn [In int_types unsigned_types signed_types app] in Ht.
  repeat destruct Ht as [<-|Ht]; try contradiction; unfold in_range, tmin, tmax in *; cbn in *; lia.
Qed.
Lemma promote_cases t : In t int_types -> In (promote t) [i32; u32; i64; u64].
Proof. intros Ht. cbn [In int_types unsigned_types signed_types app] in Ht. repeat destruct Ht as [<-|Ht]; try contradiction; cbn; tauto. Qed.
Lemma promote_idem t : In t int_types -> promote (promote t) = promote t.
Proof. intros Ht. destruct (promote_cases t Ht) as [<-|[<-|[<-|[<-|[]]]]]; reflexivity. Qed.
(** The multiplication, exactly. *)
Lemma offset_exact t n s : In t int_types -> in_range t n = true -> in_range i32 s = true ->
  offset t n s = if in_range (promote t) (n * s) then Done (n * s) else if sgn (promote t) then Fault FUB else Done ((n * s) mod 2 ^ wid (promote t)).
Proof.
  intros Ht Hn Hs. unfold offset, arith. pose proof (promote_range t n Ht Hn) as Pn.
  assert (PC := promote_cases t Ht). remember (promote t) as p eqn:EP. clear EP Ht.
  assert (WP : 0 < wid p) by (destruct PC as [<-|[<-|[<-|[<-|[]]]]]; reflexivity). rewrite (cast_id p n WP Pn).
  destruct (sgn p) eqn:SG.
  - rewrite (cast_id p s WP). 2:{ destruct PC as [<-|[<-|[<-|[<-|[]]]]]; try discriminate SG; unfold in_range, tmin, tmax in *; cbn in *; lia. } reflexivity.
  - rewrite !cast_unsigned_mod by exact SG. rewrite Z.mul_mod_idemp_r by (apply Z.pow_nonzero; lia). destruct (in_range p (n * s)) eqn:R; [|reflexivity].
    f_equal. apply Z.mod_small. unfold in_range, tmin, tmax in R. rewrite SG in R. lia.
Qed.
Lemma offset_fits t n s : In t int_types -> in_range t n = true -> in_range i32 s = true -> fits t n s -> offset t n s = Done (n * s).
Proof. intros Ht Hn Hs HF. rewrite offset_exact by assumption. now rewrite HF. Qed.

(** [p] is an address the memory model allows. *)
Definition valid (m : memory) (p : Z) : Prop := match m with Iso lo hi => lo <= p <= hi | Flat => 0 <= p < 2 ^ 64 end.
Lemma padd_valid m p off : valid m (p + off) -> padd m p off = Done (p + off).
Proof.
  destruct m as [lo hi|]; cbn [valid padd]; intros H.
  - replace ((lo <=? p + off) && (p + off <=? hi)) with true by lia. reflexivity.
  - f_equal. now apply Z.mod_small.
Qed.

Section Laws.
  Variables (m : memory) (q : sptr).
  Hypothesis Hs : in_range i32 (stride q) = true.
  Lemma index_done t n : In t int_types -> in_range t n = true -> fits t n (stride q) -> valid m (ptr q + n * stride q) -> sp_index m t q n = Done (ptr q + n * stride q).
  Proof. intros Ht Hn HF HV. unfold sp_index. rewrite offset_fits by assumption. cbn [bind]. now apply padd_valid. Qed.
  Lemma add_done t n : In t int_types -> in_range t n = true -> fits t n (stride q) -> valid m (ptr q + n * stride q) ->
    sp_add m t q n = Done (mkSptr (ptr q + n * stride q) (stride q)) /\ sp_add_assign m t q n = Done (mkSptr (ptr q + n * stride q) (stride q)).
  Proof. intros Ht Hn HF HV. unfold sp_add, sp_add_assign. rewrite offset_fits by assumption. cbn [bind]. rewrite padd_valid by exact HV. split; reflexivity. Qed.
  Lemma sub_done t n : In t int_types -> in_range t n = true -> fits t n (stride q) -> valid m (ptr q - n * stride q) ->
    sp_sub m t q n = Done (mkSptr (ptr q - n * stride q) (stride q)) /\ sp_sub_assign m t q n = Done (mkSptr (ptr q - n * stride q) (stride q)).
  Proof.
    intros Ht Hn HF HV. unfold sp_sub, sp_sub_assign. rewrite offset_fits by assumption. cbn [bind]. rewrite <- Z.add_opp_r in HV. rewrite padd_valid by exact HV.
    rewrite Z.add_opp_r. split; reflexivity.
  Qed.
  Lemma inc_done : valid m (ptr q + stride q) -> sp_inc m q = Done (mkSptr (ptr q + stride q) (stride q)).
  Proof. intros HV. unfold sp_inc. rewrite padd_valid by exact HV. reflexivity. Qed.
  Lemma dec_done : valid m (ptr q - stride q) -> sp_dec m q = Done (mkSptr (ptr q - stride q) (stride q)).
  Proof. intros HV. rewrite <- Z.add_opp_r in *. unfold sp_dec. rewrite padd_valid by exact HV. reflexivity. Qed.
End Laws.

Lemma diff_done a b n : - 2 ^ 63 < ptr a - ptr b < 2 ^ 63 -> stride a <> 0 -> ptr a = ptr b + n * stride a -> sp_diff a b = Done n.
Proof.
  intros HB HZ HE. change (2 ^ 63) with 9223372036854775808 in HB.
  assert (Ei64 : forall z, -9223372036854775808 < z < 9223372036854775808 -> arith i64 z = Done z).
  { intros z Hz. apply arith_id; [cbn; tauto|]. unfold in_range, tmin, tmax. cbn. lia. }
  unfold sp_diff. rewrite Ei64 by lia. cbn [bind]. unfold cdiv. destruct (Z.eqb_spec (stride a) 0) as [|_]; [contradiction|].
  replace (ptr a - ptr b) with (n * stride a) by lia. rewrite Z.quot_mul by exact HZ. apply Ei64.
  replace (ptr a - ptr b) with (n * stride a) in HB by lia. assert (Z.abs n <= Z.abs (n * stride a)); [|lia].
  rewrite Z.abs_mul. rewrite <- (Z.mul_1_r (Z.abs n)) at 1. apply Z.mul_le_mono_nonneg_l; lia.
Qed.
Lemma diff_stride_zero a b : - 2 ^ 63 < ptr a - ptr b < 2 ^ 63 -> stride a = 0 -> sp_diff a b = Fault FUB.
Proof.
  intros HB HZ. change (2 ^ 63) with 9223372036854775808 in HB. unfold sp_diff. rewrite arith_id; [|cbn; tauto|unfold in_range, tmin, tmax; cbn; lia].
  cbn [bind]. unfold cdiv. now rewrite HZ.
Qed.

(** ** Index products that do not fit *)
Lemma product_bound t n s : In t int_types -> in_range t n = true -> wid t <= 32 -> in_range i32 s = true -> - 2 ^ 63 <= n * s <= 2 ^ 63.
Proof.
  intros Ht Hn Hw Hs. assert (- 2 ^ 32 <= n <= 2 ^ 32).
  { cbn [In int_types unsigned_types signed_types app] in Ht. repeat destruct Ht as [<-|Ht]; try contradiction; unfold in_range, tmin, tmax in *; cbn in *; lia. }
  assert (- 2 ^ 31 <= s <= 2 ^ 31) by (unfold in_range, tmin, tmax in Hs; cbn in *; lia).
  change (2 ^ 63) with (2 ^ 32 * 2 ^ 31). apply Z.abs_le. rewrite Z.abs_mul. apply Z.mul_le_mono_nonneg; lia.
Qed.
Lemma index_int_overflow m t q n : In t int_types -> in_range t n = true -> in_range i32 (stride q) = true -> sgn (promote t) = true -> ~ fits t n (stride q) ->
  sp_index m t q n = Fault FUB /\ sp_add m t q n = Fault FUB /\ sp_sub m t q n = Fault FUB.
Proof.
  intros Ht Hn Hs HG HF. unfold sp_index, sp_add, sp_sub. rewrite offset_exact by assumption. unfold fits in HF. destruct (in_range (promote t) (n * stride q)); [tauto|].
  rewrite HG. repeat split; reflexivity.
Qed.
(** A 32-bit unsigned index: whatever the memory model, the address is never the designated one. *)
Lemma index_u32_wraps m q n : in_range u32 n = true -> in_range i32 (stride q) = true -> ~ fits u32 n (stride q) -> 0 <= ptr q + n * stride q < 2 ^ 64 -> 0 <= ptr q < 2 ^ 64 ->
  sp_index m u32 q n <> Done (ptr q + n * stride q).
Proof.
  intros Hn Hs HF HV HP. unfold sp_index. rewrite offset_exact by (trivial; cbn; tauto). unfold fits in HF. change (promote u32) with u32 in *.
  destruct (in_range u32 (n * stride q)) eqn:R; [tauto|]. cbn [sgn wid u32 bind].
  pose proof (product_bound u32 n (stride q) ltac:(cbn; tauto) Hn ltac:(cbn; lia) Hs) as PB. unfold in_range, tmin, tmax in R. cbn [sgn wid u32] in R.
  set (x := n * stride q) in *. clearbody x.
  assert (MB : 0 <= x mod 2 ^ 32 < 2 ^ 32) by (apply Z.mod_pos_bound; reflexivity).
  change (2 ^ 32) with 4294967296 in *. change (2 ^ 63) with 9223372036854775808 in *. change (2 ^ 64) with 18446744073709551616 in *.
  destruct m as [lo hi|]; cbn [padd].
  - destruct ((lo <=? ptr q + x mod 4294967296) && (ptr q + x mod 4294967296 <=? hi)); cbn [require bind]; [|discriminate]. intros E. injection E as E. lia.
  - intros E. injection E as E. change (2 ^ 64) with 18446744073709551616 in E. pose proof (Z.div_mod (ptr q + x mod 4294967296) 18446744073709551616 ltac:(lia)).
    set (k := (ptr q + x mod 4294967296) / 18446744073709551616) in *. assert (0 <= k <= 1).
    { unfold k. split; [apply Z.div_pos; lia|]. apply Z.lt_succ_r. apply Z.div_lt_upper_bound; lia. }
    lia.
Qed.
(** A 64-bit unsigned index with a negative product. *)
Lemma index_u64_negative q n : in_range u64 n = true -> in_range i32 (stride q) = true -> - 2 ^ 64 < n * stride q < 0 -> 
  offset u64 n (stride q) = Done (n * stride q + 2 ^ 64).
Proof.
  intros Hn Hs HB. rewrite offset_exact by (trivial; cbn; tauto). change (promote u64) with u64.
  replace (in_range u64 (n * stride q)) with false by (unfold in_range, tmin, tmax; cbn [sgn u64]; lia). cbn [sgn wid u64]. f_equal.
  symmetry. apply Z.mod_unique with (-1); lia.
Qed.
