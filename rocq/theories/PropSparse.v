(** Properties C59, C60, C78: SparsePtr. *)
From Verif Require Import Base CInt SparseModel SparseProofs.
Open Scope Z_scope.

(** *** C59 *)
(** Element [n] of the sequence is at [base + n * stride], when the product fits the type it is computed in (int for narrow indices). *)
Theorem C59_index_partial : forall m q t n, in_range i32 (stride q) = true -> In t int_types -> in_range t n = true ->
  in_range (promote t) (n * stride q) = true -> valid m (ptr q + n * stride q) ->
  sp_index m t q n = Done (ptr q + n * stride q) /\
  sp_add m t q n = Done (mkSptr (ptr q + n * stride q) (stride q)) /\ sp_add_assign m t q n = sp_add m t q n.
Proof.
  intros m q t n Hs Ht Hn HF HV. split; [now apply index_done|]. destruct (add_done m q Hs t n Ht Hn HF HV) as (E & E'). split; [exact E | now rewrite E, E'].
Qed.
Print Assumptions C59_index_partial.
Theorem C59_sub_partial : forall m q t n, in_range i32 (stride q) = true -> In t int_types -> in_range t n = true ->
  in_range (promote t) (n * stride q) = true -> valid m (ptr q - n * stride q) ->
  sp_sub m t q n = Done (mkSptr (ptr q - n * stride q) (stride q)) /\ sp_sub_assign m t q n = sp_sub m t q n.
Proof. intros m q t n Hs Ht Hn HF HV. destruct (sub_done m q Hs t n Ht Hn HF HV) as (E & E'). split; [exact E | now rewrite E, E']. Qed.
Print Assumptions C59_sub_partial.
(** (p + a) + b = p + (a + b), each index of its own type. *)
Theorem C59_associative_partial : forall m q t u w a b, in_range i32 (stride q) = true -> In t int_types -> In u int_types -> In w int_types ->
  in_range t a = true -> in_range u b = true -> in_range w (a + b) = true ->
  in_range (promote t) (a * stride q) = true -> in_range (promote u) (b * stride q) = true -> in_range (promote w) ((a + b) * stride q) = true ->
  valid m (ptr q + a * stride q) -> valid m (ptr q + (a + b) * stride q) ->
  exists r, sp_add m w q (a + b) = Done r /\ (x <- sp_add m t q a ;; sp_add m u x b) = Done r.
Proof.
  intros m q t u w a b Hs Ht Hu Hw Ha Hb Hab Fa Fb Fab Va Vab. destruct (add_done m q Hs w (a + b) Hw Hab Fab Vab) as (E & _). rewrite E.
  destruct (add_done m q Hs t a Ht Ha Fa Va) as (E1 & _). rewrite E1. cbn [bind]. eexists. split; [reflexivity|].
  set (x := mkSptr (ptr q + a * stride q) (stride q)).
  assert (V : valid m (ptr x + b * stride x)) by (cbn [x ptr stride]; now rewrite <- Z.add_assoc, <- Z.mul_add_distr_r).
  destruct (add_done m x Hs u b Hu Hb Fb V) as (E2 & _). rewrite E2. cbn [x ptr stride]. do 2 f_equal. lia.
Qed.
Print Assumptions C59_associative_partial.
(** (p + n) - n = p, (p - n) + n = p and (p + n) - p = n. *)
Theorem C59_inverse_partial : forall m q t n, in_range i32 (stride q) = true -> In t int_types -> in_range t n = true ->
  in_range (promote t) (n * stride q) = true -> valid m (ptr q) -> valid m (ptr q + n * stride q) ->
  (x <- sp_add m t q n ;; sp_sub m t x n) = Done q.
Proof.
  intros m q t n Hs Ht Hn HF HP HV. destruct (add_done m q Hs t n Ht Hn HF HV) as (E & _). rewrite E. cbn [bind].
  set (x := mkSptr (ptr q + n * stride q) (stride q)). assert (V : valid m (ptr x - n * stride x)) by (cbn [x ptr stride]; now rewrite Z.add_simpl_r).
  destruct (sub_done m x Hs t n Ht Hn HF V) as (E2 & _). rewrite E2. cbn [x ptr stride]. rewrite Z.add_simpl_r. now destruct q.
Qed.
Print Assumptions C59_inverse_partial.
Theorem C59_inverse_sub_partial : forall m q t n, in_range i32 (stride q) = true -> In t int_types -> in_range t n = true ->
  in_range (promote t) (n * stride q) = true -> valid m (ptr q) -> valid m (ptr q - n * stride q) ->
  (x <- sp_sub m t q n ;; sp_add m t x n) = Done q.
Proof.
  intros m q t n Hs Ht Hn HF HP HV. destruct (sub_done m q Hs t n Ht Hn HF HV) as (E & _). rewrite E. cbn [bind].
  set (x := mkSptr (ptr q - n * stride q) (stride q)). assert (V : valid m (ptr x + n * stride x)) by (cbn [x ptr stride]; now rewrite Z.sub_add).
  destruct (add_done m x Hs t n Ht Hn HF V) as (E2 & _). rewrite E2. cbn [x ptr stride]. rewrite Z.sub_add. now destruct q.
Qed.
Print Assumptions C59_inverse_sub_partial.
Theorem C59_difference_partial : forall m q t n, in_range i32 (stride q) = true -> In t int_types -> in_range t n = true ->
  in_range (promote t) (n * stride q) = true -> valid m (ptr q + n * stride q) -> - 2 ^ 63 < n * stride q < 2 ^ 63 -> stride q <> 0 ->
  (x <- sp_add m t q n ;; sp_diff x q) = Done n.
Proof.
  intros m q t n Hs Ht Hn HF HV HB HZ. destruct (add_done m q Hs t n Ht Hn HF HV) as (E & _). rewrite E. cbn [bind].
  apply diff_done; cbn [ptr stride]; trivial. lia.
Qed.
Print Assumptions C59_difference_partial.
(** ++ and -- step by one element whatever the sign of the stride, are inverse, and the postfix forms return the old value. *)
Theorem C59_increment : forall m q, valid m (ptr q) -> valid m (ptr q + stride q) ->
  sp_inc m q = Done (mkSptr (ptr q + stride q) (stride q)) /\ (x <- sp_inc m q ;; sp_dec m x) = Done q /\
  sp_post_inc m q = Done (q, mkSptr (ptr q + stride q) (stride q)).
Proof.
  intros m q HP HV. unfold sp_post_inc. rewrite inc_done by exact HV. cbn [bind]. split; [reflexivity|]. split.
  - rewrite dec_done; cbn [ptr stride]; rewrite Z.add_simpl_r; [now destruct q | exact HP].
  - now destruct q.
Qed.
Print Assumptions C59_increment.
Theorem C59_decrement : forall m q, valid m (ptr q) -> valid m (ptr q - stride q) ->
  sp_dec m q = Done (mkSptr (ptr q - stride q) (stride q)) /\ (x <- sp_dec m q ;; sp_inc m x) = Done q /\
  sp_post_dec m q = Done (q, mkSptr (ptr q - stride q) (stride q)).
Proof.
  intros m q HP HV. unfold sp_post_dec. rewrite dec_done by exact HV. cbn [bind]. split; [reflexivity|]. split.
  - rewrite inc_done; cbn [ptr stride]; rewrite Z.sub_add; [now destruct q | exact HP].
  - now destruct q.
Qed.
Print Assumptions C59_decrement.
(** Construction: the byte stride, sizeof(T) by default; a std::size_t stride above the int range is refused. *)
Theorem C59_construction : forall p s, 0 <= s ->
  (s <= 2 ^ 31 - 1 -> sp_of_size p s = Done (mkSptr p s) /\ sp_of_ptr s p = mkSptr p s) /\ (2 ^ 31 - 1 < s -> sp_of_size p s = Fault FAssert) /\
  sp_bool sp_null = false /\ (p <> 0 -> sp_bool (sp_reset p s) = true).
Proof.
  intros p s Hs. unfold sp_of_size, sp_of_ptr, tmax. cbn [sgn wid i32]. change (2 ^ (32 - 1)) with (2 ^ 31). split; [|split; [|split]].
  - intros H. replace (s <=? 2 ^ 31 - 1) with true by lia. cbn [assert bind]. unfold sp_reset. rewrite MathProofs.cast_id; [auto|reflexivity|].
    unfold in_range, tmin, tmax. cbn [sgn wid i32]. change (2 ^ (32 - 1)) with (2 ^ 31). lia.
  - intros H. replace (s <=? 2 ^ 31 - 1) with false by lia. reflexivity.
  - reflexivity.
  - intros H. unfold sp_bool. cbn [ptr sp_reset]. replace (p =? 0) with false by lia. reflexivity.
Qed.
Print Assumptions C59_construction.
(** What fails. An UInt32 index whose product with the stride is negative or exceeds 32 bits never reaches its element, in either memory model. *)
Theorem C59_u32_index_refuted : forall m q n, in_range u32 n = true -> in_range i32 (stride q) = true -> ~ 0 <= n * stride q < 2 ^ 32 ->
  0 <= ptr q < 2 ^ 64 -> 0 <= ptr q + n * stride q < 2 ^ 64 -> sp_index m u32 q n <> Done (ptr q + n * stride q).
Proof.
  intros m q n Hn Hs HF HP HV. apply index_u32_wraps; trivial. unfold fits, in_range, tmin, tmax. change (promote u32) with u32. cbn [sgn wid u32]. lia.
Qed.
Print Assumptions C59_u32_index_refuted.
(** An index of type int or narrower (signed or not) overflows int. *)
Theorem C59_int_index_refuted : forall m q t n, In t [u8; u16; i8; i16; i32] -> in_range t n = true -> in_range i32 (stride q) = true -> ~ - 2 ^ 31 <= n * stride q < 2 ^ 31 ->
  sp_index m t q n = Fault FUB /\ sp_add m t q n = Fault FUB /\ sp_sub m t q n = Fault FUB.
Proof.
  intros m q t n Ht Hn Hs HF. assert (PR : promote t = i32) by (cbn [In] in Ht; repeat destruct Ht as [<-|Ht]; try contradiction; reflexivity).
  apply index_int_overflow; trivial.
  - cbn [In] in Ht. repeat destruct Ht as [<-|Ht]; try contradiction; cbn; tauto.
  - now rewrite PR.
  - unfold fits. rewrite PR. unfold in_range, tmin, tmax. cbn [sgn wid i32]. change (2 ^ (32 - 1)) with (2 ^ 31). lia.
Qed.
Print Assumptions C59_int_index_refuted.
(** A std::size_t index over a negative stride relies on the address space wrapping: right on flat memory, undefined in ISO C++. *)
Theorem C59_size_t_index_refuted : forall lo hi q n, in_range u64 n = true -> in_range i32 (stride q) = true -> - 2 ^ 64 < n * stride q < 0 ->
  0 <= lo -> hi < 2 ^ 64 -> lo <= ptr q + n * stride q <= hi -> sp_index (Iso lo hi) u64 q n = Fault FUB.
Proof.
  intros lo hi q n Hn Hs HB HL HH HV. unfold sp_index. rewrite index_u64_negative by assumption. cbn [bind padd].
  replace ((lo <=? ptr q + (n * stride q + 2 ^ 64)) && (ptr q + (n * stride q + 2 ^ 64) <=? hi)) with false by lia. reflexivity.
Qed.
Print Assumptions C59_size_t_index_refuted.
Theorem C59_size_t_index_flat_partial : forall q n, in_range u64 n = true -> in_range i32 (stride q) = true -> - 2 ^ 64 < n * stride q < 0 ->
  0 <= ptr q + n * stride q < 2 ^ 64 -> sp_index Flat u64 q n = Done (ptr q + n * stride q).
Proof.
  intros q n Hn Hs HB HV. unfold sp_index. rewrite index_u64_negative by assumption. cbn [bind padd]. f_equal. symmetry. apply Z.mod_unique with 1; lia.
Qed.
Print Assumptions C59_size_t_index_flat_partial.
(** With stride 0 (a default constructed SparsePtr) the difference divides by zero. *)
Theorem C59_stride_zero_refuted : forall a b, - 2 ^ 63 < ptr a - ptr b < 2 ^ 63 -> stride a = 0 -> sp_diff a b = Fault FUB.
Proof. exact diff_stride_zero. Qed.
Print Assumptions C59_stride_zero_refuted.
Example C59_nonvacuous :
  let q := mkSptr 1000 8 in let r := mkSptr 1000 (-8) in
  sp_index (Iso 1000 1040) i32 q 5 = Done 1040 /\ sp_index (Iso 1000 1040) i32 q 6 = Fault FUB /\ sp_index (Iso 960 1000) i8 r 5 = Done 960 /\
  sp_index Flat u16 r 5 = Done 960 /\ sp_index Flat u32 r 5 = Done (960 + 2 ^ 32) /\ sp_index Flat u64 r 5 = Done 960 /\ sp_index (Iso 960 1000) u64 r 5 = Fault FUB /\
  sp_index Flat i32 (mkSptr 1000 4096) 600000 = Fault FUB /\ sp_index Flat i64 (mkSptr 1000 4096) 600000 = Done 2457601000 /\
  sp_diff (mkSptr 960 (-8)) r = Done 5 /\ sp_diff sp_null sp_null = Fault FUB.
Proof. vm_compute. repeat split. Qed.

(** *** C60 *)
(** Elements [i] and [j] of one sequence compare as [i] and [j] when the stride is positive, and subtraction gives the distance. *)
Theorem C60_order : forall b s i j, 0 < s -> - 2 ^ 63 < (j - i) * s < 2 ^ 63 ->
  let p := mkSptr (b + i * s) s in let q := mkSptr (b + j * s) s in
  sp_diff q p = Done (j - i) /\ (sp_lt p q = true <-> i < j) /\ (sp_le p q = true <-> i <= j) /\ (sp_gt p q = true <-> i > j) /\ (sp_ge p q = true <-> i >= j) /\
  (sp_eq p q = true <-> i = j) /\ (sp_ne p q = true <-> i <> j).
Proof.
  intros b s i j Hs HB p q. split; [apply diff_done; cbn [p q ptr stride]; lia|]. unfold sp_lt, sp_le, sp_gt, sp_ge, sp_eq, sp_ne. cbn [p q ptr].
  assert (L : i * s < j * s <-> i < j) by (symmetry; apply Z.mul_lt_mono_pos_r; lia).
  assert (E : i * s = j * s <-> i = j) by (rewrite Z.mul_cancel_r by lia; reflexivity).
  rewrite negb_true_iff, Z.eqb_neq. repeat split; lia.
Qed.
Print Assumptions C60_order.
(** The comparisons are one total order on addresses. *)
Theorem C60_total : forall a b c,
  sp_lt a a = false /\ (sp_lt a b = true -> sp_lt b c = true -> sp_lt a c = true) /\ (sp_lt a b = true \/ sp_eq a b = true \/ sp_lt b a = true) /\
  sp_gt a b = sp_lt b a /\ sp_le a b = negb (sp_lt b a) /\ sp_ge a b = negb (sp_lt a b) /\ sp_ne a b = negb (sp_eq a b) /\ sp_le a b = sp_lt a b || sp_eq a b.
Proof. intros a b c. unfold sp_lt, sp_le, sp_gt, sp_ge, sp_eq, sp_ne. lia. Qed.
Print Assumptions C60_total.
(** For negative strides the order is the reverse of the iteration order. *)
Theorem C60_negative_stride_refuted : forall b s i j, s < 0 -> - 2 ^ 63 < (j - i) * s < 2 ^ 63 ->
  let p := mkSptr (b + i * s) s in let q := mkSptr (b + j * s) s in sp_diff q p = Done (j - i) /\ (sp_lt p q = true <-> j < i).
Proof.
  intros b s i j Hs HB p q. split; [apply diff_done; cbn [p q ptr stride]; lia|]. unfold sp_lt. cbn [p q ptr].
  assert (L : i * s < j * s <-> j < i) by (symmetry; apply Z.mul_lt_mono_neg_r; lia). lia.
Qed.
Print Assumptions C60_negative_stride_refuted.
Example C60_nonvacuous : sp_lt (mkSptr 8 4) (mkSptr 12 4) = true /\ sp_diff (mkSptr 12 4) (mkSptr 8 4) = Done 1 /\
  sp_lt (mkSptr 8 (-4)) (mkSptr 12 (-4)) = true /\ sp_diff (mkSptr 12 (-4)) (mkSptr 8 (-4)) = Done (-1).
Proof. vm_compute. repeat split. Qed.

(** *** C78 *)
(** [delta] is the offset of the base class subobject in an element: the converted pointer should designate [ptr + delta]. *)
Theorem C78_convert_partial : forall q, ptr (sp_convert q) = ptr q + 0 /\ stride (sp_convert q) = stride q.
Proof. intros q. unfold sp_convert. cbn. lia. Qed.
Print Assumptions C78_convert_partial.
Theorem C78_convert_refuted : forall q delta, delta <> 0 -> ptr (sp_convert q) <> ptr q + delta.
Proof. intros q delta H. unfold sp_convert. cbn. lia. Qed.
Print Assumptions C78_convert_refuted.
Example C78_nonvacuous : sp_convert (mkSptr 96 16) = mkSptr 96 16.
Proof. reflexivity. Qed.
