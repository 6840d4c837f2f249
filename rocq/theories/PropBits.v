(** Properties C98 and C99: BitCast, AccessByOffset and NazaraOffsetOf. *)
From Verif Require Import Base CInt MathProofs FloatSpec FloatProofs BitsModel.
Open Scope Z_scope.

(** ** Floating point formats *)
Section Format.
  Variables prec emax : Z.
  Hypothesis Hprec : 1 < prec.
  Hypothesis Hemax : prec < emax.
  Notation P := (2 ^ (prec - 1)).
  Definition float_value (v : value) : Prop :=
    match v with
    | VNumber S754_nan => False
    | VNumber x => valid_binary prec emax x = true
    | VNan _ p => 0 < p < P
    | _ => False
    end.
  Lemma P_pos : 0 < P. Proof. apply Z.pow_pos_nonneg; lia. Qed.
  Lemma P_double : 2 ^ prec = 2 * P. Proof. replace prec with (1 + (prec - 1)) at 1 by lia. rewrite Z.pow_add_r by lia. reflexivity. Qed.

  Lemma decode_parts (s : bool) E M : 0 <= E < 2 * emax -> 0 <= M < P ->
    let z := (if s then sign_bit prec emax else 0) + E * P + M in
    0 <= z < 2 * sign_bit prec emax /\ (sign_bit prec emax <=? z) = s /\ (z mod sign_bit prec emax) / P = E /\ (z mod sign_bit prec emax) mod P = M.
  Proof.
    intros HE HM z. pose proof P_pos as PP. unfold sign_bit in *. set (p := P) in *. clearbody p.
    assert (R : 0 <= E * p + M < 2 * emax * p) by nia.
    assert (X : z mod (2 * emax * p) = E * p + M).
    { subst z. destruct s; [|cbn; apply Z.mod_small; lia]. replace (2 * emax * p + E * p + M) with (E * p + M + 1 * (2 * emax * p)) by ring.
      rewrite Z.mod_add by lia. apply Z.mod_small; lia. }
    rewrite X. repeat split.
    - subst z. destruct s; nia.
    - subst z. destruct s; nia.
    - subst z. destruct s; [apply Z.leb_le | apply Z.leb_gt]; nia.
    - rewrite Z.div_add_l by lia. rewrite Z.div_small by lia. lia.
    - rewrite Z.add_comm, Z.mod_add by lia. apply Z.mod_small; lia.
  Qed.

  Lemma float_encode v : float_value v -> 0 <= float_bits prec emax v < 2 * sign_bit prec emax /\ float_of_bits prec emax (float_bits prec emax v) = v.
  Proof.
    pose proof P_pos as PP. intros W.
    assert (K : forall (s : bool) E M, 0 <= E < 2 * emax -> 0 <= M < P ->
      (if E =? exponent_max emax then (if M =? 0 then VNumber (S754_infinity s) else VNan s M)
       else if E =? 0 then VNumber (finite s M (emin prec emax)) else VNumber (finite s (M + P) (E - 1 + emin prec emax))) = v ->
      float_bits prec emax v = (if s then sign_bit prec emax else 0) + E * P + M ->
      0 <= float_bits prec emax v < 2 * sign_bit prec emax /\ float_of_bits prec emax (float_bits prec emax v) = v).
    { intros s E M HE HM V B. destruct (decode_parts s E M HE HM) as (R & S1 & S2 & S3). rewrite B. split; [exact R|].
      unfold float_of_bits. cbn zeta. now rewrite S1, S2, S3. }
    destruct v as [| | |[s|s| |s m e]|s p|]; cbn in W; try contradiction.
    - apply (K s 0 0); try lia; [|cbn [float_bits]; destruct s; lia]. unfold exponent_max. replace (0 =? 2 * emax - 1) with false by lia. reflexivity.
    - apply (K s (exponent_max emax) 0); unfold exponent_max; try lia; [|cbn [float_bits]; unfold exponent_max; destruct s; lia]. rewrite Z.eqb_refl. reflexivity.
    - apply (bounded_canon prec emax Hprec Hemax) in W. destruct W as (C & L). unfold canon in C. rewrite P_double in C.
      cbn [float_bits] in *. destruct (Z.ltb_spec (Zpos m) P) as [D|D].
      + apply (K s 0 (Zpos m)); try lia. unfold exponent_max. replace (0 =? 2 * emax - 1) with false by lia. cbn [Z.eqb finite].
        assert (e = emin prec emax) by lia. now subst.
      + apply (K s (e - emin prec emax + 1) (Zpos m - P)); try lia.
        * unfold emin in *. lia.
        * unfold exponent_max. replace (e - emin prec emax + 1 =? 2 * emax - 1) with false by (unfold emin in *; lia).
          replace (e - emin prec emax + 1 =? 0) with false by lia. replace (Zpos m - P + P) with (Zpos m) by ring. cbn [finite].
          do 2 f_equal. lia.
    - apply (K s (exponent_max emax) p); unfold exponent_max; try lia; [|reflexivity]. rewrite Z.eqb_refl. now replace (p =? 0) with false by lia.
  Qed.
  Lemma float_decode z : 0 <= z < 2 * sign_bit prec emax -> float_value (float_of_bits prec emax z) /\ float_bits prec emax (float_of_bits prec emax z) = z.
  Proof.
    intros R. pose proof P_pos as PP. assert (SB : sign_bit prec emax = 2 * emax * P) by reflexivity.
    set (s := sign_bit prec emax <=? z). set (y := z mod sign_bit prec emax).
    assert (Z0 : z = (if s then sign_bit prec emax else 0) + y).
    { subst s y. destruct (Z.leb_spec (sign_bit prec emax) z) as [H|H]; [|rewrite Z.mod_small by lia; lia].
      replace z with ((z - sign_bit prec emax) + 1 * sign_bit prec emax) at 2 by ring. rewrite Z.mod_add by nia. rewrite Z.mod_small by lia. lia. }
    assert (Y : 0 <= y < 2 * emax * P) by (subst y; rewrite <- SB; apply Z.mod_pos_bound; nia).
    pose proof (Z.div_mod y P ltac:(lia)) as DM. pose proof (Z.mod_pos_bound y P PP) as MB.
    assert (EB : 0 <= y / P < 2 * emax) by (split; [apply Z.div_pos; lia | apply Z.div_lt_upper_bound; lia]).
    unfold float_of_bits. fold s y. cbn zeta. set (E := y / P) in *. set (M := y mod P) in *. clearbody E M.
    assert (ZE : z = (if s then sign_bit prec emax else 0) + E * P + M) by lia. clearbody s. clear Z0.
    destruct (Z.eqb_spec E (exponent_max emax)) as [H|H]; [|destruct (Z.eqb_spec E 0) as [H0|H0]].
    - destruct (Z.eqb_spec M 0) as [HM|HM]; cbn; (split; [try reflexivity; lia | lia]).
    - subst E. destruct M as [|m|m]; cbn [finite]; [split; [reflexivity | cbn [float_bits]; lia] | | lia].
      split.
      + cbn [float_value valid_binary]. apply (bounded_canon prec emax Hprec Hemax). split; [|unfold emin; lia]. unfold canon. rewrite P_double. unfold emin. lia.
      + cbn [float_bits]. replace (Zpos m <? P) with true by lia. lia.
    - unfold exponent_max in H. destruct (M + P) as [|m|m] eqn:MP; [lia| |lia]. cbn [finite]. split.
      + cbn [float_value valid_binary]. apply (bounded_canon prec emax Hprec Hemax). split; [|unfold emin; lia]. unfold canon. rewrite P_double. unfold emin. lia.
      + cbn [float_bits]. replace (Zpos m <? P) with false by lia. rewrite ZE. replace (E - 1 + emin prec emax - emin prec emax + 1) with E by ring. lia.
  Qed.
End Format.

(** ** Bytes *)
Definition bytes (l : list Z) : Prop := Forall (fun b => 0 <= b < 256) l.
Lemma le_length n z : length (le_bytes n z) = n.
Proof. revert z; induction n; intros; cbn; auto. Qed.
Lemma le_range n z : bytes (le_bytes n z).
Proof. revert z; induction n as [|n IH]; intros; cbn; constructor; [apply Z.mod_pos_bound; lia | apply IH]. Qed.
Lemma of_le_range l : bytes l -> 0 <= of_le l < 256 ^ Z.of_nat (length l).
Proof.
  induction 1 as [|b l B _ IH]; [cbn; lia|]. cbn [of_le length]. rewrite Nat2Z.inj_succ, Z.pow_succ_r by lia. lia.
Qed.
Lemma of_le_bytes n z : 0 <= z < 256 ^ Z.of_nat n -> of_le (le_bytes n z) = z.
Proof.
  revert z; induction n as [|n IH]; intros z H; cbn [le_bytes of_le]; [cbn in H; lia|]. rewrite Nat2Z.inj_succ, Z.pow_succ_r in H by lia.
  rewrite IH; [pose proof (Z.div_mod z 256); lia|]. split; [apply Z.div_pos; lia | apply Z.div_lt_upper_bound; lia].
Qed.
Lemma le_bytes_of l : bytes l -> le_bytes (length l) (of_le l) = l.
Proof.
  induction 1 as [|b l B _ IH]; [reflexivity|]. cbn [of_le length le_bytes]. f_equal.
  - rewrite Z.mul_comm, Z.mod_add by lia. now apply Z.mod_small.
  - rewrite Z.mul_comm, Z.div_add by lia. rewrite Z.div_small by lia. exact IH.
Qed.
Lemma ordered_bytes little l : bytes l -> bytes (ordered little l).
Proof. destruct little; cbn; trivial. intros H. apply Forall_rev. exact H. Qed.
Lemma ordered_twice little l : ordered little (ordered little l) = l.
Proof. destruct little; cbn; trivial. apply rev_involutive. Qed.
Lemma ordered_length little l : length (ordered little l) = length l.
Proof. destruct little; cbn; trivial. apply rev_length. Qed.
Lemma to_of_bytes little n z : 0 <= z < 256 ^ Z.of_nat n -> of_bytes little (to_bytes little n z) = z.
Proof. intros H. unfold of_bytes, to_bytes. rewrite ordered_twice. now apply of_le_bytes. Qed.
Lemma of_to_bytes little l : bytes l -> to_bytes little (length l) (of_bytes little l) = l.
Proof. intros H. unfold of_bytes, to_bytes. rewrite <- (ordered_length little l). rewrite le_bytes_of by now apply ordered_bytes. apply ordered_twice. Qed.
Lemma of_bytes_range little l : bytes l -> 0 <= of_bytes little l < 256 ^ Z.of_nat (length l).
Proof. intros H. unfold of_bytes. rewrite <- (ordered_length little l). apply of_le_range. now apply ordered_bytes. Qed.
Lemma to_bytes_good little n z : length (to_bytes little n z) = n /\ bytes (to_bytes little n z).
Proof. unfold to_bytes. rewrite ordered_length, le_length. split; [reflexivity|]. apply ordered_bytes, le_range. Qed.

(** ** C98 *)
(** The values of a type. *)
Definition has_type (t : oty) (v : value) : Prop :=
  match t, v with
  | OInt t, VInt z => tmin t <= z <= tmax t
  | OBool, VBool _ => True
  | OPointer, VPointer a => 0 <= a < 2 ^ 64
  | OFloat, v => float_value 24 128 v
  | ODouble, v => float_value 53 1024 v
  | OBytes n, VBytes l => length l = n /\ bytes l
  | _, _ => False
  end.
(** Only the integer types of C++. *)
Definition proper (t : oty) : Prop := match t with OInt t => In t int_types | _ => True end.

Local Ltac types H := cbn in H; decompose [or] H; clear H; subst; try contradiction.
Lemma int_width t : In t int_types -> 256 ^ Z.of_nat (Z.to_nat (wid t / 8)) = 2 ^ wid t.
Proof. intros H. types H; reflexivity. Qed.
Lemma cast_mod_value t z : In t int_types -> tmin t <= z <= tmax t -> cast t (z mod 2 ^ wid t) = z.
Proof.
  intros H R. unfold cast. rewrite Z.mod_mod by (types H; cbn; lia). fold (cast t z). apply cast_id; [types H; reflexivity|]. unfold in_range. lia.
Qed.
Lemma cast_range t z : In t int_types -> tmin t <= cast t z <= tmax t.
Proof.
  intros H. unfold cast, tmin, tmax. types H; cbn [sgn wid u8 u16 u32 u64 i8 i16 i32 i64];
  match goal with |- context [z mod ?m] => pose proof (Z.mod_pos_bound z m ltac:(reflexivity)) as B; set (r := z mod m) in * end;
  cbn in B |- *; try lia; match goal with |- context [?a <? ?b] => destruct (Z.ltb_spec a b) end; lia.
Qed.
Lemma cast_bits t z : In t int_types -> 0 <= z < 2 ^ wid t -> (cast t z) mod 2 ^ wid t = z.
Proof.
  intros H R. unfold cast. rewrite (Z.mod_small z) by exact R. assert (W : 0 < 2 ^ wid t) by lia.
  destruct (sgn t); [|now apply Z.mod_small]. destruct (z <? 2 ^ (wid t - 1)); [now apply Z.mod_small|].
  replace (z - 2 ^ wid t) with (z + (-1) * 2 ^ wid t) by ring. rewrite Z.mod_add by lia. now apply Z.mod_small.
Qed.

Lemma represent little t v : proper t -> has_type t v ->
  length (object_bytes little t v) = size_of t /\ bytes (object_bytes little t v) /\ object_value little t (object_bytes little t v) = Done v.
Proof.
  intros Hp Ht. destruct t as [t| | | | |n].
  - destruct v; try contradiction. cbn in Hp, Ht. cbn [object_bytes object_value size_of].
    destruct (to_bytes_good little (Z.to_nat (wid t / 8)) (z mod 2 ^ wid t)) as (L & B). split; [exact L|]. split; [exact B|].
    rewrite to_of_bytes; [now rewrite cast_mod_value|]. rewrite int_width by exact Hp. apply Z.mod_pos_bound. types Hp; reflexivity.
  - destruct v as [| [|] | | | |]; try contradiction; cbn; repeat split; repeat constructor; lia.
  - destruct v; try contradiction. cbn [has_type] in Ht. cbn [object_bytes object_value size_of].
    destruct (to_bytes_good little 8 a) as (L & B). split; [exact L|]. split; [exact B|]. now rewrite to_of_bytes.
  - destruct (float_encode 24 128 ltac:(lia) ltac:(lia) v Ht) as (R & E).
    destruct (to_bytes_good little 4 (float_bits 24 128 v)) as (L & B).
    assert (X : object_bytes little OFloat v = to_bytes little 4 (float_bits 24 128 v)) by (now destruct v). rewrite X. cbn [size_of object_value].
    split; [exact L|]. split; [exact B|]. rewrite to_of_bytes by exact R. now rewrite E.
  - destruct (float_encode 53 1024 ltac:(lia) ltac:(lia) v Ht) as (R & E).
    destruct (to_bytes_good little 8 (float_bits 53 1024 v)) as (L & B).
    assert (X : object_bytes little ODouble v = to_bytes little 8 (float_bits 53 1024 v)) by (now destruct v). rewrite X. cbn [size_of object_value].
    split; [exact L|]. split; [exact B|]. rewrite to_of_bytes by exact R. now rewrite E.
  - destruct v; try contradiction. cbn in Ht |- *. now split.
Qed.
Lemma interpret little t l v : proper t -> length l = size_of t -> bytes l -> object_value little t l = Done v -> has_type t v /\ object_bytes little t v = l.
Proof.
  intros Hp L B E. pose proof (of_bytes_range little l B) as R. pose proof (of_to_bytes little l B) as T. rewrite L in R, T.
  destruct t as [t| | | | |n]; cbn [object_value] in E.
  - injection E as <-. cbn [has_type object_bytes size_of] in *. cbn in Hp. rewrite int_width in R by exact Hp. split; [now apply cast_range|].
    now rewrite cast_bits.
  - destruct l as [|b [|? ?]]; try discriminate. cbn [length size_of] in *. destruct b as [|[?|?|]|]; try discriminate; injection E as <-; now split.
  - injection E as <-. now split.
  - injection E as <-. destruct (float_decode 24 128 ltac:(lia) ltac:(lia) _ R) as (F & X). split; [exact F|].
    replace (object_bytes little OFloat (float_of_bits 24 128 (of_bytes little l))) with (to_bytes little 4 (float_bits 24 128 (float_of_bits 24 128 (of_bytes little l)))) by (now destruct (float_of_bits 24 128 (of_bytes little l))).
    now rewrite X.
  - injection E as <-. destruct (float_decode 53 1024 ltac:(lia) ltac:(lia) _ R) as (F & X). split; [exact F|].
    replace (object_bytes little ODouble (float_of_bits 53 1024 (of_bytes little l))) with (to_bytes little 8 (float_bits 53 1024 (float_of_bits 53 1024 (of_bytes little l)))) by (now destruct (float_of_bits 53 1024 (of_bytes little l))).
    now rewrite X.
  - injection E as <-. cbn in *. now repeat split.
Qed.

(** Casting there and back gives the value itself, for every pair of types of the same size (NaN payloads included); *)
Theorem C98_round_trip : forall little From To v w, proper From -> proper To -> size_of From = size_of To -> has_type From v ->
  BitCast little From To v = Done w -> has_type To w /\ BitCast little To From w = Done v.
Proof.
  intros little From To v w PF PT S HV E. destruct (represent little From v PF HV) as (L & B & X). unfold BitCast in *. rewrite S in L.
  destruct (interpret little To _ w PT L B E) as (HW & Y). split; [exact HW|]. now rewrite Y.
Qed.
Print Assumptions C98_round_trip.
(** the cast is defined, unless the destination is bool and the byte neither 0 nor 1; *)
Theorem C98_defined : forall little From To v, proper From -> proper To -> size_of From = size_of To -> has_type From v ->
  (To <> OBool -> exists w, BitCast little From To v = Done w) /\
  (To = OBool -> forall b, object_bytes little From v = [b] -> if (b =? 0) || (b =? 1) then exists w, BitCast little From To v = Done w else BitCast little From To v = Fault FUB).
Proof.
  intros little From To v PF PT S HV. split.
  - intros N. unfold BitCast. destruct To; try congruence; cbn; eauto.
  - intros -> b E. unfold BitCast. rewrite E. destruct (represent little From v PF HV) as (_ & B & _). rewrite E in B. inversion B as [|? ? R _]; subst.
    destruct b as [|[p|p|]|p]; cbn in *; eauto; try lia; destruct p; reflexivity.
Qed.
Print Assumptions C98_defined.
(** between integer types it is the conversion; *)
Theorem C98_integers : forall little t u z, In t int_types -> In u int_types -> wid t = wid u -> tmin t <= z <= tmax t ->
  BitCast little (OInt t) (OInt u) (VInt z) = Done (VInt (cast u z)).
Proof.
  intros little t u z Ht Hu W R. unfold BitCast. cbn [object_bytes object_value]. rewrite to_of_bytes.
  - unfold cast. rewrite W, Z.mod_mod by (types Hu; cbn; lia). reflexivity.
  - rewrite int_width by exact Ht. apply Z.mod_pos_bound. types Ht; reflexivity.
Qed.
Print Assumptions C98_integers.
(** to bytes, it gives the bytes of the integer in the order of the host. *)
Theorem C98_bytes : forall (little : bool) t z k, In t unsigned_types -> 0 <= z <= tmax t -> (k < size_of (OInt t))%nat ->
  exists l, BitCast little (OInt t) (OBytes (size_of (OInt t))) (VInt z) = Done (VBytes l) /\ length l = size_of (OInt t) /\
    nth k l 0 = (z / 256 ^ Z.of_nat (if little then k else (size_of (OInt t) - 1 - k)%nat)) mod 256.
Proof.
  intros little t z k Ht R K. assert (Hi : In t int_types) by (apply in_or_app; now left).
  assert (Z0 : z mod 2 ^ wid t = z).
  { apply Z.mod_small. unfold tmax in R. types Ht; cbn in *; lia. }
  eexists. split; [reflexivity|]. cbn [size_of object_bytes]. rewrite Z0. split; [apply to_bytes_good|].
  assert (N : forall n z k, (k < n)%nat -> nth k (le_bytes n z) 0 = (z / 256 ^ Z.of_nat k) mod 256).
  { clear. induction n as [|n IH]; intros z k H; [lia|]. destruct k as [|k]; cbn [le_bytes nth]; [now rewrite Z.div_1_r|].
    rewrite IH by lia. rewrite Nat2Z.inj_succ, Z.pow_succ_r, Z.div_div by lia. reflexivity. }
  unfold to_bytes, ordered. destruct little; [now apply N|]. rewrite rev_nth by (rewrite le_length; exact K). rewrite le_length.
  rewrite N by (cbn in K; lia). do 3 f_equal. cbn in K. lia.
Qed.
Print Assumptions C98_bytes.

(** The memcpy version is the same function. *)
Theorem C98_memcpy : forall little From To v, proper From -> size_of From = size_of To -> has_type From v ->
  BitCast_memcpy little From To v = BitCast little From To v.
Proof.
  intros little From To v PF S HV. destruct (represent little From v PF HV) as (L & _ & _). unfold BitCast_memcpy, BitCast. cbn zeta.
  set (src := object_bytes little From v) in *. rewrite S in L. rewrite <- L.
  destruct (foreach_range (fun i r => r = map Some (firstn i src) ++ repeat None (length src - i)) (fun r i => b <- vget src i ;; vset r i (Some b)) 0 (length src) (repeat None (length src))) as (r & E & HR).
  - lia.
  - cbn. now rewrite Nat.sub_0_r.
  - intros i r Hi ->. unfold vget. destruct (nth_error src i) as [b|] eqn:EB; [|apply nth_error_None in EB; lia]. cbn [bind]. unfold vset.
    rewrite app_length, map_length, firstn_length, repeat_length. replace (i <? _)%nat with true by (symmetry; apply Nat.ltb_lt; lia).
    eexists. split; [reflexivity|]. destruct (length src - i)%nat as [|j] eqn:J; [lia|]. cbn [repeat].
    apply nth_error_split in EB as (l1 & l2 & E12 & LL). rewrite E12. rewrite <- LL.
    rewrite firstn_app, firstn_all, Nat.sub_diag. cbn [firstn]. rewrite app_nil_r.
    assert (F : firstn (length l1 + 1) (l1 ++ b :: l2) = l1 ++ [b]).
    { rewrite firstn_app, firstn_all2 by lia. f_equal. replace (length l1 + 1 - length l1)%nat with 1%nat by lia. reflexivity. }
    rewrite F, map_app. cbn [map]. rewrite <- app_assoc. cbn [app].
    replace (length l1) with (length (map (@Some Z) l1)) at 1 by apply map_length.
    assert (U : forall (A : Type) (l1 : list A) x l2 y, upd (l1 ++ x :: l2) (length l1) y = l1 ++ y :: l2).
    { clear. induction l1; intros; cbn; [reflexivity|]. now rewrite IHl1. }
    rewrite U. do 3 f_equal. rewrite app_length in *. cbn [length] in *. rewrite E12, app_length in J. cbn in J. lia.
  - rewrite E. cbn [bind]. rewrite HR, Nat.sub_diag, firstn_all. cbn [repeat]. rewrite app_nil_r.
    assert (K : forall l, all_known (map Some l) = Done l) by (induction l as [|? ? IH]; cbn; [reflexivity | now rewrite IH]). now rewrite K.
Qed.
Print Assumptions C98_memcpy.
Example C98_nonvacuous :
  let one := VNumber (S754_finite false 8388608 (-23)) in
  has_type OFloat one /\ BitCast true OFloat (OInt u32) one = Done (VInt 0x3F800000) /\ BitCast false OFloat (OBytes 4) one = Done (VBytes [0x3F; 0x80; 0; 0]) /\
  BitCast true (OInt u32) OFloat (VInt 0x7FC00001) = Done (VNan false 0x400001) /\ BitCast true (OInt i32) (OInt u32) (VInt (-1)) = Done (VInt 0xFFFFFFFF) /\
  BitCast true (OInt u64) ODouble (VInt 1) = Done (VNumber (S754_finite false 1 (-1074))) /\ BitCast true (OInt u8) OBool (VInt 2) = Fault FUB.
Proof. repeat split; vm_compute; reflexivity. Qed.

(** ** C99 *)
(** Alignments are powers of two and sizes positive. *)
Definition member_ok (m : member) : Prop := 0 < m_size m /\ exists k, 0 <= k /\ m_align m = 2 ^ k.
Definition struct_align (l : list member) : Z := fold_right (fun m a => Z.max (m_align m) a) 1 l.

Lemma round_up_spec z a : 0 < a -> z <= round_up z a < z + a /\ (round_up z a) mod a = 0.
Proof.
  intros H. unfold round_up. split; [|apply Z.mod_mul; lia]. pose proof (Z.div_mod (z + a - 1) a ltac:(lia)) as D. pose proof (Z.mod_pos_bound (z + a - 1) a H). nia.
Qed.
Lemma align_divides l m : Forall member_ok l -> In m l -> (m_align m | struct_align l) /\ 0 < struct_align l.
Proof.
  intros F. assert (K : exists k, 0 <= k /\ struct_align l = 2 ^ k).
  { induction F as [|x l (_ & k & Hk & E) _ (j & Hj & IH)]; [now exists 0|]. cbn [struct_align fold_right]. fold (struct_align l). rewrite E, IH.
    destruct (Z.max_spec (2 ^ k) (2 ^ j)) as [(_ & ->)|(_ & ->)]; eauto. }
  intros I. assert (LE : m_align m <= struct_align l).
  { clear -I. induction l as [|x l IH]; [destruct I|]. cbn [struct_align fold_right]. fold (struct_align l). destruct I as [->|I]; [lia|]. specialize (IH I). lia. }
  destruct K as (k & Hk & EK). rewrite EK in *. rewrite Forall_forall in F. destruct (F m I) as (_ & j & Hj & E). rewrite E in *.
  split; [|apply Z.pow_pos_nonneg; lia]. assert (j <= k) by (apply (Z.pow_le_mono_r_iff 2); lia).
  exists (2 ^ (k - j)). rewrite <- Z.pow_add_r by lia. f_equal. lia.
Qed.
Lemma offsets_spec l : Forall member_ok l -> forall at_ i m, nth_error l i = Some m -> 
  exists o, nth_error (offsets at_ l) i = Some o /\ at_ <= o /\ o mod m_align m = 0 /\
    (forall j m' o', (j < i)%nat -> nth_error l j = Some m' -> nth_error (offsets at_ l) j = Some o' -> o' + m_size m' <= o).
Proof.
  induction 1 as [|x l (Sx & k & Hk & Ax) F IH]; intros at_ i m E; [destruct i; discriminate|].
  assert (A0 : 0 < m_align x) by (rewrite Ax; apply Z.pow_pos_nonneg; lia). destruct (round_up_spec at_ _ A0) as (R & D).
  destruct i as [|i]; cbn [nth_error offsets] in *.
  - injection E as <-. eexists. split; [reflexivity|]. split; [lia|]. split; [exact D|]. intros; lia.
  - destruct (IH (round_up at_ (m_align x) + m_size x) i m E) as (o & EO & L & D' & K). exists o. split; [exact EO|]. split; [lia|]. split; [exact D'|].
    intros [|j] m' o' Hj Em' Eo'; cbn in Em', Eo'.
    + injection Em' as <-. injection Eo' as <-. exact L.
    + apply (K j); trivial. lia.
Qed.

(** The offset of a member, used on an object at any suitably aligned address, gives an aligned access to the bytes of that member:
    what is written is read back, and no byte outside the member changes; *)
Theorem C99_access : forall l i m base mem data, Forall member_ok l -> nth_error l i = Some m -> base mod struct_align l = 0 -> Z.of_nat (length data) = m_size m ->
  exists o, OffsetOf l i = Done o /\ 0 <= o /\
    exists mem', store mem (AccessByOffset base o) (m_align m) data = Done mem' /\
      load mem' (AccessByOffset base o) (m_align m) (length data) = Done data /\
      (forall a, a < base + o \/ base + o + m_size m <= a -> mem' a = mem a).
Proof.
  intros l i m base mem data F E B L. destruct (offsets_spec l F 0 i m E) as (o & EO & O0 & OA & _). exists o.
  unfold OffsetOf, vget. rewrite EO. cbn [bind Z.add]. split; [reflexivity|]. split; [exact O0|].
  destruct (align_divides l m F (nth_error_In _ _ E)) as ((q & Q) & S0).
  assert (A0 : 0 < m_align m) by (rewrite Forall_forall in F; destruct (F m (nth_error_In _ _ E)) as (_ & k & Hk & ->); apply Z.pow_pos_nonneg; lia).
  assert (AL : (base + o) mod m_align m = 0).
  { apply Z.mod_divide in B; [|lia]. apply Z.mod_divide in OA; [|lia]. apply Z.mod_divide; [lia|]. apply Z.divide_add_r; [|exact OA].
    eapply Z.divide_trans; [|exact B]. now exists q. }
  unfold store, load, AccessByOffset. rewrite AL. cbn [Z.eqb require bind]. eexists. split; [reflexivity|]. split.
  - f_equal. apply nth_ext with (d := 0) (d' := 0); [now rewrite map_length, seq_length|]. intros n Hn. rewrite map_length, seq_length in Hn.
    rewrite (nth_indep _ 0 ((fun i0 : nat => if (base + o <=? base + o + Z.of_nat i0) && (base + o + Z.of_nat i0 <? base + o + Z.of_nat (length data)) then nth (Z.to_nat (base + o + Z.of_nat i0 - (base + o))) data 0 else mem (base + o + Z.of_nat i0)) 0%nat)) by (rewrite map_length, seq_length; exact Hn).
    rewrite (map_nth (fun i0 : nat => if (base + o <=? base + o + Z.of_nat i0) && (base + o + Z.of_nat i0 <? base + o + Z.of_nat (length data)) then nth (Z.to_nat (base + o + Z.of_nat i0 - (base + o))) data 0 else mem (base + o + Z.of_nat i0))).
    rewrite seq_nth by exact Hn. cbn [Nat.add]. replace ((base + o <=? base + o + Z.of_nat n) && (base + o + Z.of_nat n <? base + o + Z.of_nat (length data))) with true by lia.
    f_equal. lia.
  - intros a Ha. replace ((base + o <=? a) && (a <? base + o + Z.of_nat (length data))) with false by lia. reflexivity.
Qed.
Print Assumptions C99_access.
(** members do not overlap. *)
Theorem C99_disjoint : forall l i j m m' o o', Forall member_ok l -> (i < j)%nat -> nth_error l i = Some m -> nth_error l j = Some m' ->
  OffsetOf l i = Done o -> OffsetOf l j = Done o' -> o + m_size m <= o'.
Proof.
  intros l i j m m' o o' F H E E' O O'. destruct (offsets_spec l F 0 j m' E') as (p & EP & _ & _ & K). destruct (offsets_spec l F 0 i m E) as (q & EQ & _ & _ & _).
  unfold OffsetOf, vget in O, O'. rewrite EQ in O. rewrite EP in O'. cbn in O, O'. injection O as <-. injection O' as <-. now apply (K i m q).
Qed.
Print Assumptions C99_disjoint.
Example C99_nonvacuous :
  let l := [mkMember 1 1; mkMember 4 4; mkMember 2 2; mkMember 8 8] in
  Forall member_ok l /\ map (OffsetOf l) [0; 1; 2; 3]%nat = [Done 0; Done 4; Done 8; Done 16] /\ struct_align l = 8.
Proof.
  split; [|split; reflexivity]. repeat constructor; cbn; try lia; [now exists 0 | now exists 2 | now exists 1 | now exists 3].
Qed.
