(** Property C136: the iterators and the iterator requirements of the standard. *)
From Coq Require Import String.
From Verif Require Import Base CInt EnumArrayModel SparseModel SparseProofs PropEnumArray IterExprModel IterExprProofs.
Open Scope string_scope.
Open Scope Z_scope.

(** *** The requirements ([input.iterators], [forward.iterators], [bidirectional.iterators], [random.access.iterators]), [r] is an iterator, [a] and [b] are const. *)
Definition r := Var 0. Definition a := Var 1. Definition b := Var 2. Definition n := 1.
Definition is (t : ty) (u : ty) : bool :=
  match t, u with Iter, Iter | ConstIter, ConstIter | TempIter, TempIter | DiffT, DiffT | Bool, Bool | Ref, Ref | ConstRef, ConstRef | Prvalue, Prvalue | Pointer, Pointer => true | _, _ => false end.
(** Is an expression of that type of the type [reference], convertible to it, to the value type? Without member [reference] it is the type of [*a]. *)
Definition is_reference (t : types) (u : ty) : bool := match reference t with Some v => is v u | None => is u Ref || is u ConstRef || is u Prvalue end.
Definition to_reference (t : types) (u : ty) : bool := match reference t with Some ConstRef => is u Ref || is u ConstRef | Some v => is v u | None => is u Ref || is u ConstRef || is u Prvalue end.
Definition to_value (u : ty) : bool := is u Ref || is u ConstRef || is u Prvalue.
Definition any (u : ty) : bool := true.
Definition input (t : types) : list (string * expr * (ty -> bool)) :=
  [("a == b", Bin Eq a b, is Bool); ("a != b", Bin Ne a b, is Bool); ("*a", Un Deref a, is_reference t); ("++r", Un PreInc r, is Iter); ("r++", Un PostInc r, any); ("*r++", Un Deref (Un PostInc r), to_value)]
  ++ if members t then [("a->m", Un Arrow a, is Pointer)] else [].
Definition forward (t : types) : list (string * expr * (ty -> bool)) :=
  [("X()", New, is_iter); ("r++ is an iterator", Un PostInc r, is_iter); ("*r++ is a reference", Un Deref (Un PostInc r), is_reference t); ("*a is an lvalue", Un Deref a, fun u => is u Ref || is u ConstRef)].
Definition bidirectional (t : types) : list (string * expr * (ty -> bool)) :=
  [("--r", Un PreDec r, is Iter); ("r--", Un PostDec r, is_iter); ("*r--", Un Deref (Un PostDec r), is_reference t)].
Definition random_access (t : types) : list (string * expr * (ty -> bool)) :=
  [("r += n", ByN AddAssign r n, is Iter); ("a + n", ByN Plus a n, is_iter); ("n + a", ByN PlusLeft a n, is_iter); ("r -= n", ByN SubAssign r n, is Iter); ("a - n", ByN Minus a n, is_iter); ("b - a", Bin Diff b a, is DiffT);
   ("a[n]", ByN Index a n, to_reference t); ("a < b", Bin Lt a b, is Bool); ("a > b", Bin Gt a b, is Bool); ("a <= b", Bin Le a b, is Bool); ("a >= b", Bin Ge a b, is Bool)].
Definition required (t : types) : list (string * expr * (ty -> bool)) :=
  match tag t with
  | None => []
  | Some Input => input t
  | Some Forward => input t ++ forward t
  | Some Bidirectional => input t ++ forward t ++ bidirectional t
  | Some RandomAccess => input t ++ forward t ++ bidirectional t ++ random_access t
  end.
Definition variables (v : nat) : bool := negb (Nat.eqb v 0).
(** What the category the class declares requires of it and it does not have. *)
Definition unmet (c : class) (t : types) : list string :=
  map (fun x => fst (fst x)) (filter (fun '(_, e, ok) => match type_of c variables e with Some u => negb (ok u) | None => true end) (required t)).

(** *** C136 *)
Theorem C136_requirements_partial : unmet Bits Bits_types = [] /\ unmet FlagsIter FlagsIter_types = [] /\ unmet Pool (Pool_types false) = [].
Proof. repeat split. Qed.
Theorem C136_pool_refuted : unmet Pool (Pool_types true) = ["a->m"].
Proof. reflexivity. Qed.
Theorem C136_sparse_refuted : forall m, unmet Sparse (Sparse_types m) = ["*a"; "*r++ is a reference"; "*r--"; "n + a"].
Proof. intros []; reflexivity. Qed.
Theorem C136_enum_refuted : unmet EnumKv EnumKv_types = ["a->m"; "X()"; "*a is an lvalue"; "r += n"; "a + n"; "n + a"; "r -= n"; "a - n"; "b - a"].
Proof. reflexivity. Qed.
(** std::iterator_traits, without which no algorithm of the standard library takes the iterator. *)
Theorem C136_traits : forall m, has_traits false Pool (Pool_types m) = true /\ has_traits false Sparse (Sparse_types m) = true /\ has_traits true FlagsIter FlagsIter_types = true /\ has_traits true EnumKv EnumKv_types = true.
Proof. intros m. repeat split; destruct m; reflexivity. Qed.
Theorem C136_traits_refuted : has_traits false FlagsIter FlagsIter_types = false /\ has_traits false EnumKv EnumKv_types = false /\ forall cpp20, has_traits cpp20 Bits Bits_types = false.
Proof. repeat split. intros []; reflexivity. Qed.
(** The member types each class declares. *)
Definition declared (t : types) : list string :=
  (if has_difference t then ["difference_type"] else []) ++ (if has_value t then ["value_type"] else []) ++ (if has_pointer t then ["pointer"] else []) ++ (if reference t then ["reference"] else []) ++
  (if tag t then ["iterator_category"] else []).
Theorem C136_member_types : forall m, declared EnumKv_types = ["difference_type"; "value_type"; "iterator_category"] /\ declared Bits_types = ["value_type"; "iterator_category"] /\
  declared FlagsIter_types = ["difference_type"; "value_type"; "iterator_category"] /\ declared (Pool_types m) = ["difference_type"; "value_type"; "pointer"; "reference"; "iterator_category"] /\
  declared (Sparse_types m) = declared (Pool_types m) /\ declared (Ptr_types m) = declared (Pool_types m) /\
  map specialised [EnumKv_types; Bits_types; FlagsIter_types; Pool_types m; Sparse_types m; Ptr_types m] = [false; false; false; false; true; true].
Proof. intros m. repeat split. Qed.
Print Assumptions C136_member_types.

(** *** What compiles *)
(** A const iterator cannot be moved, and everything else works as with one that is not const. *)
Definition moves_it (o : unary) : bool := match o with PreInc | PostInc | PreDec | PostDec => true | _ => false end.
Definition moves_by (o : byn) : bool := match o with AddAssign | SubAssign => true | _ => false end.
Theorem C136_const : forall c constant e f, In c [EnumKv; Bits; FlagsIter; Pool; Sparse; Ptr] -> type_of c constant e = Some ConstIter -> type_of c constant f = Some Iter ->
  (forall o, type_of c constant (Un o e) = if moves_it o then None else type_of c constant (Un o f)) /\
  (forall o n, type_of c constant (ByN o e n) = if moves_by o then None else type_of c constant (ByN o f n)) /\
  (forall o g, type_of c constant (Bin o e g) = type_of c constant (Bin o f g)).
Proof.
  intros c constant e f H E F. cbn [type_of]. rewrite E, F. repeat destruct H as [<-|H]; try contradiction; (split; [intros []; reflexivity|]); (split; [intros [] ?; reflexivity|]); intros o g; destruct (type_of _ constant g) as [t|]; [destruct o, t; reflexivity|reflexivity|..];
    try (destruct o, t; reflexivity); reflexivity.
Qed.
Print Assumptions C136_const.
(** A temporary can be moved if it is an object of a class, a pointer cannot. *)
Theorem C136_temporary : forall c constant e f, In c [EnumKv; Bits; FlagsIter; Pool; Sparse; Ptr] -> type_of c constant e = Some TempIter -> type_of c constant f = Some Iter ->
  (forall o, moves_it o = true -> c <> Ptr -> type_of c constant (Un o e) = type_of c constant (Un o f)) /\ (forall o, moves_it o = true -> type_of Ptr constant f = Some Iter -> c = Ptr -> type_of c constant (Un o e) = None) /\
  (forall o n, moves_by o = true -> c <> Ptr -> type_of c constant (ByN o e n) = type_of c constant (ByN o f n)) /\ (forall o n, moves_by o = true -> c = Ptr -> type_of c constant (ByN o e n) = None).
Proof.
  intros c constant e f H E F. cbn [type_of]. rewrite E, F. repeat destruct H as [<-|H]; try contradiction;
    (split; [intros [] M N; try discriminate M; reflexivity || (exfalso; apply N; reflexivity)|]);
    (split; [intros [] M N K; try discriminate M; reflexivity || discriminate (f_equal (fun c => match un c PreInc with Some o => named o | None => false end) K)|]);
    (split; [intros [] z M N; try discriminate M; reflexivity || (exfalso; apply N; reflexivity)|]);
    intros [] z M K; try discriminate M; reflexivity || discriminate (f_equal (fun c => match un c PreInc with Some o => named o | None => false end) K).
Qed.
Print Assumptions C136_temporary.
(** An expression over pointers compiles over SparsePtr, with the same type, unless it adds a pointer to an integer on its left. *)
Fixpoint no_left (e : expr) : bool := match e with Var _ | New => true | Un _ e => no_left e | ByN PlusLeft _ _ => false | ByN _ e _ => no_left e | Bin _ e f => no_left e && no_left f end.
Theorem C136_sparse_compiles : forall constant e t, no_left e = true -> type_of Ptr constant e = Some t -> type_of Sparse constant e = Some t.
Proof.
  intros constant. induction e as [v| |o e IH|o e IH z|o e IHe f IHf]; intros t N T.
  - exact T.
  - exact T.
  - cbn [type_of no_left] in *. destruct (type_of Ptr constant e) as [te|]; [|discriminate]. rewrite (IH te N eq_refl). destruct o, te; cbn in *; congruence.
  - cbn [type_of no_left] in *. destruct (type_of Ptr constant e) as [te|]; [|discriminate]. assert (N' : no_left e = true) by (destruct o; congruence). rewrite (IH te N' eq_refl). destruct o, te; cbn in *; congruence.
  - cbn [type_of no_left] in *. apply andb_prop in N. destruct N as (Ne & Nf). destruct (type_of Ptr constant e) as [te|]; [|discriminate]. destruct (type_of Ptr constant f) as [tf|]; [|discriminate].
    rewrite (IHe te Ne eq_refl), (IHf tf Nf eq_refl). destruct o; cbn [bin Ptr Sparse] in *; exact T.
Qed.
(** Over EnumArrayKvIterator too if there is no sum, no difference, no member access and no default iterator. *)
Fixpoint common (e : expr) : bool := match e with Var _ => true | New => false | Un Arrow _ => false | Un _ e => common e | ByN (Plus | Minus | PlusLeft) _ _ => false | ByN _ e _ => common e | Bin Diff _ _ => false | Bin _ e f => common e && common f end.
Definition weaker (t u : ty) : Prop := u = t \/ (t = Iter /\ u = TempIter) \/ (t = Ref /\ u = Prvalue).
Theorem C136_enum_compiles : forall constant e t, common e = true -> type_of Ptr constant e = Some t -> exists u, type_of EnumKv constant e = Some u /\ weaker t u.
Proof.
  intros constant. unfold weaker. induction e as [v| |o e IH|o e IH z|o e IHe f IHf]; intros t N T.
  - exists t. auto.
  - discriminate.
  - assert (N' : common e = true) by (destruct o; cbn in N; congruence). cbn [type_of] in *. destruct (type_of Ptr constant e) as [te|]; [|discriminate]. destruct (IH te N' eq_refl) as (u & -> & H).
    destruct o; try discriminate N; destruct H as [-> | [(-> & ->)|(-> & ->)]]; try destruct te; cbn in *; try discriminate T; injection T as <-; eauto 7.
  - assert (N' : common e = true) by (destruct o; cbn in N; congruence). cbn [type_of] in *. destruct (type_of Ptr constant e) as [te|]; [|discriminate]. destruct (IH te N' eq_refl) as (u & -> & H).
    destruct o; try discriminate N; destruct H as [-> | [(-> & ->)|(-> & ->)]]; try destruct te; cbn in *; try discriminate T; injection T as <-; eauto 7.
  - assert (N' : common e = true /\ common f = true) by (destruct o; cbn in N; try discriminate; now apply andb_prop). destruct N' as (Ne & Nf). cbn [type_of] in *. destruct (type_of Ptr constant e) as [te|]; [|discriminate]. destruct (type_of Ptr constant f) as [tf|]; [|discriminate].
    destruct (IHe te Ne eq_refl) as (u & -> & H). destruct (IHf tf Nf eq_refl) as (w & -> & H2).
    destruct o; try discriminate N; cbn [bin Ptr EnumKv compare] in *; (destruct (is_iter tf) eqn:IS; [|discriminate T]);
      (assert (is_iter w = true) as -> by (destruct H2 as [-> | [(-> & ->)|(-> & ->)]]; [exact IS|reflexivity|discriminate IS]));
      destruct H as [-> | [(-> & ->)|(-> & ->)]]; try destruct te; cbn in *; try discriminate T; injection T as <-; eauto 7.
Qed.

(** *** What it computes *)
Lemma at_inv len i j : (if (0 <=? i) && (i <=? len) then Done i else Fault FUB) = Done j -> j = i /\ 0 <= i <= len.
Proof. destruct (0 <=? i) eqn:A; [|discriminate]. destruct (i <=? len) eqn:B; [|discriminate]. apply Z.leb_le in A. apply Z.leb_le in B. intros H. injection H as <-. auto. Qed.
Lemma elem_inv len i j : (if (0 <=? i) && (i <? len) then Done i else Fault FUB) = Done j -> j = i /\ 0 <= i < len.
Proof. destruct (0 <=? i) eqn:A; [|discriminate]. destruct (i <? len) eqn:B; [|discriminate]. apply Z.leb_le in A. apply Z.ltb_lt in B. intros H. injection H as <-. auto. Qed.

(** SparsePtr over [len] elements [st] bytes apart: every expression that is valid for pointers to the elements of an array and compiles designates the same
    elements, changes the variables in the same way and gives the same differences and comparisons. *)
Definition at_sparse (base st len : Z) (q : sptr) (i : Z) : Prop := q = mkSptr (base + i * st) st /\ 0 <= i <= len.
Definition same_value {I V} (R : I -> Z -> Prop) (RV : V -> Z -> Prop) (w : value I V) (v : value Z Z) : Prop :=
  match w, v with VIter it _, VIter i _ => R it i | VDiff x, VDiff y => x = y | VBool x, VBool y => x = y | VElem x, VElem y => RV x y | _, _ => False end.
Theorem C136_sparse : forall lo hi base st len, 0 < st <= tmax i32 -> 0 <= len -> len * st < 2 ^ 63 -> lo <= base -> base + len * st <= hi ->
  forall constant e l k t v k', type_of Sparse constant e = Some t -> Forall2 (at_sparse base st len) l k ->
  eval Ptr (position len) e k = Done (v, k') ->
  exists w l', eval Sparse (sparse_semantics (Iso lo hi)) e l = Done (w, l') /\ Forall2 (at_sparse base st len) l' k' /\ same_value (at_sparse base st len) (fun x i => x = base + i * st) w v.
Proof.
  intros lo hi base st len Hst Hlen Hsz Hlo Hhi constant e l k t v k' T F E.
  assert (PA : forall i z, 0 <= i <= len -> 0 <= i + z <= len -> padd (Iso lo hi) (base + i * st) (z * st) = Done (base + (i + z) * st)).
  { intros i z Hi Hz. unfold padd. replace (base + i * st + z * st) with (base + (i + z) * st) by ring. assert (0 <= (i + z) * st <= len * st) by (split; [apply Z.mul_nonneg_nonneg; lia|apply Z.mul_le_mono_nonneg_r; lia]).
    rewrite (proj2 (Z.leb_le lo _)), (proj2 (Z.leb_le _ hi)) by lia. reflexivity. }
  assert (OF : forall i z, 0 <= i <= len -> 0 <= i + z <= len -> offset i64 z st = Done (z * st)).
  { intros i z Hi Hz. assert (L : len < 2 ^ 63) by nia. assert (B : - (len * st) <= z * st <= len * st) by nia.
    assert (RG : forall y, - 2 ^ 63 < y < 2 ^ 63 -> in_range i64 y = true). { intros y Hy. unfold in_range. cbn [tmin tmax sgn wid i64]. change (2 ^ (64 - 1)) with (2 ^ 63). apply andb_true_intro. split; apply Z.leb_le; lia. }
    apply offset_fits; [vm_compute; tauto|apply RG; lia| |unfold fits; apply RG; lia]. unfold in_range. apply andb_true_intro. split; apply Z.leb_le; [|lia]. change (tmin i32) with (- 2 ^ 31). lia. }
  assert (EQ : forall i j, (base + i * st =? base + j * st) = (i =? j)) by (clear -Hst; intros i j; apply Bool.eq_iff_eq_true; rewrite !Z.eqb_eq; nia).
  assert (LT : forall i j, (base + i * st <? base + j * st) = (i <? j)) by (clear -Hst; intros i j; apply Bool.eq_iff_eq_true; rewrite !Z.ltb_lt; nia).
  assert (LE : forall i j, (base + i * st <=? base + j * st) = (i <=? j)) by (clear -Hst; intros i j; apply Bool.eq_iff_eq_true; rewrite !Z.leb_le; nia).
  destruct (simulation Sparse (sparse_semantics (Iso lo hi)) len (at_sparse base st len) (fun x i => x = base + i * st)) with (copies := false) (constant := constant) (e := e) (l := l) (k := k) (t := t) (v := v) (k' := k')
    as (w & l' & Ew & F' & Rw & _); auto.
  - intros q i j (-> & Hi) H. cbn in H. apply at_inv in H. destruct H as (-> & H). exists (mkSptr (base + (i + 1) * st) st). split; [|split; auto]. cbn. unfold sp_inc. cbn [ptr stride]. replace st with (1 * st) at 2 by ring. rewrite PA by lia. reflexivity.
  - intros q i j (-> & Hi) H. cbn in H. apply at_inv in H. destruct H as (-> & H). exists (mkSptr (base + (i - 1) * st) st). split; [|split; auto]. cbn. unfold sp_dec. cbn [ptr stride]. replace (- st) with (- (1) * st) by ring. rewrite PA by lia. reflexivity.
  - intros z q i j (-> & Hi) H. cbn in H. apply at_inv in H. destruct H as (-> & H). exists (mkSptr (base + (i + z) * st) st). split; [|split; auto]. cbn [s_add sparse_semantics]. unfold sp_add_assign. cbn [ptr stride]. rewrite (OF i) by lia. cbn [bind]. rewrite PA by lia. reflexivity.
  - intros z q i j (-> & Hi) H. cbn in H. apply at_inv in H. destruct H as (-> & H). exists (mkSptr (base + (i - z) * st) st). split; [|split; auto]. cbn [s_sub sparse_semantics]. unfold sp_sub_assign. cbn [ptr stride]. rewrite (OF (i - z)) by lia. cbn [bind]. replace (- (z * st)) with (- z * st) by ring. rewrite PA by lia. reflexivity.
  - intros z _ q i j (-> & Hi) H. cbn in H. apply at_inv in H. destruct H as (-> & H). exists (mkSptr (base + (i + z) * st) st). split; [|split; auto]. cbn [s_plus sparse_semantics]. unfold sp_add. cbn [ptr stride]. rewrite (OF i) by lia. cbn [bind]. rewrite PA by lia. reflexivity.
  - intros z _ q i j (-> & Hi) H. cbn in H. apply at_inv in H. destruct H as (-> & H). exists (mkSptr (base + (i - z) * st) st). split; [|split; auto]. cbn [s_minus sparse_semantics]. unfold sp_sub. cbn [ptr stride]. rewrite (OF (i - z)) by lia. cbn [bind]. replace (- (z * st)) with (- z * st) by ring. rewrite PA by lia. reflexivity.
  - intros q i j (-> & Hi) H. cbn in H. apply elem_inv in H. destruct H as (-> & H). exists (base + i * st). split; reflexivity.
  - intros z q i j (-> & Hi) H. cbn in H. apply elem_inv in H. destruct H as (-> & H). exists (base + (i + z) * st). split; [|reflexivity]. cbn [s_index sparse_semantics]. unfold sp_index. cbn [ptr stride]. rewrite (OF i) by lia. cbn [bind]. apply PA; lia.
  - intros _ q i q' j (-> & Hi) (-> & Hj). cbn [s_diff sparse_semantics]. unfold sp_diff. cbn [ptr stride]. replace (base + i * st - (base + j * st)) with ((i - j) * st) by ring. assert (B : - (len * st) <= (i - j) * st <= len * st) by nia. assert (L : len < 2 ^ 63) by nia.
    assert (AR : forall z, - 2 ^ 63 < z < 2 ^ 63 -> arith i64 z = Done z). { intros z Hz. unfold arith. change (promote i64) with i64. cbn [sgn i64]. unfold in_range. cbn [tmin tmax sgn wid i64]. change (2 ^ (64 - 1)) with (2 ^ 63). rewrite (proj2 (Z.leb_le _ _)), (proj2 (Z.leb_le _ _)) by lia. reflexivity. }
    rewrite AR by lia. cbn [bind]. unfold cdiv. destruct (Z.eqb_spec st 0); [lia|]. rewrite Z.quot_mul by lia. apply AR. lia.
  - intros o q i q' j x (-> & Hi) (-> & Hj) H. destruct o; cbn in *; unfold sp_eq, sp_ne, sp_lt, sp_gt, sp_le, sp_ge; cbn [ptr]; try discriminate; rewrite <- H; f_equal; rewrite ?EQ, ?LT, ?LE; reflexivity.
  - intros o [-> | ->] it obj; reflexivity.
  - exists w, l'. split; [exact Ew|]. split; [exact F'|]. destruct w, v; cbn in *; tauto.
Qed.
(** EnumArray, the elements and their keys: the same as long as what += and -= return is not changed. *)
Definition at_enum (this : nat) (len : Z) (it : iterator) (i : Z) : Prop := it = mkIt this i /\ 0 <= i <= len.
Theorem C136_enum_partial : forall (A : Type) u (array : list A) this, enumeration u (List.length array) ->
  let len := Z.of_nat (List.length array) in
  forall constant e l k t v k', type_of EnumKv constant e = Some t -> plain e = true -> Forall2 (at_enum this len) l k ->
  eval Ptr (position len) e k = Done (v, k') ->
  exists w l', eval EnumKv (enum_semantics u array) e l = Done (w, l') /\ Forall2 (at_enum this len) l' k' /\ same_value (at_enum this len) (fun x i => x = (i, Z.to_nat i)) w v.
Proof.
  intros A u array this EN len constant e l k t v k' T P F E.
  assert (KEY : forall i j, 0 <= i <= len -> 0 <= j < len -> subscript u array (mkIt this i) (j - i) = Done (j, Z.to_nat j) /\ deref u array (mkIt this j) = Done (j, Z.to_nat j)).
  { intros i j Hi Hj. unfold len in *. pose proof (C70_random_access A u array this (Z.to_nat i) (Z.to_nat j) (j - i) EN ltac:(lia) ltac:(lia) ltac:(lia)) as (_ & _ & H & _). rewrite !Z2Nat.id in H by lia. apply H. lia. }
  assert (MOVE : forall i j, 0 <= i <= len -> 0 <= j <= len -> add_assign (mkIt this i) (j - i) = Done (mkIt this j) /\ sub_assign (mkIt this i) (i - j) = Done (mkIt this j)).
  { intros i j Hi Hj. unfold len in *. pose proof (C70_random_access A u array this (Z.to_nat i) (Z.to_nat j) (j - i) EN ltac:(lia) ltac:(lia) ltac:(lia)) as (H1 & H2 & _). rewrite !Z2Nat.id in H1, H2 by lia. replace (- (j - i)) with (i - j) in H2 by ring. auto. }
  destruct (simulation EnumKv (enum_semantics u array) len (at_enum this len) (fun x i => x = (i, Z.to_nat i))) with (copies := true) (constant := constant) (e := e) (l := l) (k := k) (t := t) (v := v) (k' := k')
    as (w & l' & Ew & F' & Rw & _); auto.
  - intros q i j (-> & Hi) H. cbn in H. apply at_inv in H. destruct H as (-> & H). exists (mkIt this (i + 1)). split; [|split; auto]. cbn. unfold pre_incr. pose proof (proj1 (MOVE i (i + 1) Hi H)) as M. replace (i + 1 - i) with 1 in M by ring. exact M.
  - intros q i j (-> & Hi) H. cbn in H. apply at_inv in H. destruct H as (-> & H). exists (mkIt this (i - 1)). split; [|split; auto]. cbn. unfold pre_decr. pose proof (proj1 (MOVE i (i - 1) Hi H)) as M. replace (i - 1 - i) with (- (1)) in M by ring. exact M.
  - intros z q i j (-> & Hi) H. cbn in H. apply at_inv in H. destruct H as (-> & H). exists (mkIt this (i + z)). split; [|split; auto]. pose proof (proj1 (MOVE i (i + z) Hi H)) as M. replace (i + z - i) with z in M by ring. exact M.
  - intros z q i j (-> & Hi) H. cbn in H. apply at_inv in H. destruct H as (-> & H). exists (mkIt this (i - z)). split; [|split; auto]. pose proof (proj2 (MOVE i (i - z) Hi H)) as M. replace (i - (i - z)) with z in M by ring. exact M.
  - intros z [C|C]; contradiction C; reflexivity.
  - intros z C; contradiction C; reflexivity.
  - intros q i j (-> & Hi) H. cbn in H. apply elem_inv in H. destruct H as (-> & H). exists (i, Z.to_nat i). split; [|reflexivity]. exact (proj2 (KEY i i Hi H)).
  - intros z q i j (-> & Hi) H. cbn in H. apply elem_inv in H. destruct H as (-> & H). exists (i + z, Z.to_nat (i + z)). split; [|reflexivity]. pose proof (proj1 (KEY i (i + z) Hi H)) as M. replace (i + z - i) with z in M by ring. exact M.
  - intros C; contradiction C; reflexivity.
  - intros o q i q' j x (-> & Hi) (-> & Hj) H. destruct o; cbn in *; unfold it_eq, it_ne, it_lt, it_le, it_gt, it_ge, EnumArrayModel.compare; cbn [m_array m_index]; rewrite ?Nat.eqb_refl; cbn [assert bind]; try discriminate; rewrite <- H; f_equal; lia.
  - intros o [-> | ->] it obj; reflexivity.
  - exists w, l'. split; [exact Ew|]. split; [exact F'|]. destruct w, v; cbn in *; tauto.
Qed.
(** (r += x) += y advances by x only. *)
Theorem C136_enum_assign_refuted : forall (A : Type) u (array : list A) this constant i x y, enumeration u (List.length array) ->
  let len := Z.of_nat (List.length array) in 0 <= i <= len -> 0 <= i + x <= len -> 0 <= i + x + y <= len -> constant 0%nat = false ->
  let e := ByN AddAssign (ByN AddAssign (Var 0) x) y in
  type_of EnumKv constant e <> None /\
  eval Ptr (position len) e [i] = Done (VIter (i + x + y) (Some 0%nat), [i + x + y]) /\
  eval EnumKv (enum_semantics u array) e [mkIt this i] = Done (VIter (mkIt this (i + x + y)) None, [mkIt this (i + x)]).
Proof.
  intros A u array this constant i x y EN len Hi Hx Hy C. cbv zeta. split; [cbn; rewrite C; discriminate|].
  assert (MOVE : forall i j, 0 <= i <= len -> 0 <= j <= len -> add_assign (mkIt this i) (j - i) = Done (mkIt this j)).
  { clear -EN. intros i j Hi Hj. unfold len in *. pose proof (C70_random_access A u array this (Z.to_nat i) (Z.to_nat j) (j - i) EN ltac:(lia) ltac:(lia) ltac:(lia)) as (H1 & _). rewrite !Z2Nat.id in H1 by lia. exact H1. }
  split.
  - cbn. rewrite !(proj2 (Z.leb_le _ _)) by lia. cbn. rewrite !(proj2 (Z.leb_le _ _)) by lia. reflexivity.
  - cbn [eval bind the_iter vget nth_error s_add enum_semantics]. pose proof (MOVE i (i + x) Hi Hx) as M1. replace (i + x - i) with x in M1 by ring. rewrite M1. cbn [bind returned by_n EnumKv copy the_iter]. pose proof (MOVE (i + x) (i + x + y) Hx Hy) as M2. replace (i + x + y - (i + x)) with y in M2 by ring. rewrite M2. reflexivity.
Qed.
Example C136_pointer : forall m, unmet Ptr (Ptr_types m) = [] /\ has_traits false Ptr (Ptr_types m) = true.
Proof. intros []; split; reflexivity. Qed.
Example C136_run : let e := ByN AddAssign (ByN AddAssign (Var 0) 1) 1 in
  eval Ptr (position 3) e [0] = Done (VIter 2 (Some 0%nat), [2]) /\
  eval Sparse (sparse_semantics (Iso 100 136)) e [mkSptr 100 12] = Done (VIter (mkSptr 124 12) (Some 0%nat), [mkSptr 124 12]) /\
  eval EnumKv (enum_semantics u8 [7; 8; 9]) e [mkIt 0 0] = Done (VIter (mkIt 0 2) None, [mkIt 0 1]) /\
  eval EnumKv (enum_semantics u8 [7; 8; 9]) (Un Deref (ByN AddAssign (Un PreInc (Var 0)) 1)) [mkIt 0 0] = Done (VElem (2, 2%nat), [mkIt 0 2]).
Proof. repeat split. Qed.
Print Assumptions C136_requirements_partial.
Print Assumptions C136_pool_refuted.
Print Assumptions C136_sparse_refuted.
Print Assumptions C136_enum_refuted.
Print Assumptions C136_traits.
Print Assumptions C136_traits_refuted.
Print Assumptions C136_sparse_compiles.
Print Assumptions C136_enum_compiles.
Print Assumptions C136_sparse.
Print Assumptions C136_enum_partial.
Print Assumptions C136_enum_assign_refuted.
