(** Properties C113-C115: which overload a call selects. *)
From Verif Require Import HashSpec HashModel HashProofs PropHash OverloadModel.
Open Scope nat_scope.

Definition is_size (sz : arith) : Prop := In sz [AUInt; AULong; AULLong].
Definition arith_eq_dec (a b : arith) : {a = b} + {a <> b}.
Proof. decide equality. Defined.
Definition same_arith (a b : arith) : bool := if arith_eq_dec a b then true else false.
Local Ltac sizes H := destruct H as [<-|[<-|[<-|[]]]].

Lemma ty_eqb_refl t : ty_eqb t t = true.
Proof. induction t as [a|c t IH|t IH n| | |c]; cbn [ty_eqb]; try reflexivity; rewrite ?Nat.eqb_refl, ?IH; try reflexivity. now destruct c. Qed.

(** *** C113: the hash functions *)
(** An array of chars, a string literal being a const one. *)
Definition char_array (const : bool) (n : nat) : expr := Expr (Arr (Arith AChar) n) const true false.
Theorem C113_arrays sz const n : is_size sz -> hash_call sz [char_array const n] = Chosen (if const then 0 else 3).
Proof. intros H. unfold hash_call, resolve, hash_overloads, sequences, to_param, same_or_base. cbn -[ty_eqb]. rewrite (ty_eqb_refl (Arr (Arith AChar) n)). destruct const; reflexivity. Qed.
(** So it is for an array that is moved from. *)
Theorem C113_arrays_moved sz const n : is_size sz -> hash_call sz [Expr (Arr (Arith AChar) n) const false false] = Chosen (if const then 0 else 3).
Proof. intros H. unfold hash_call, resolve, hash_overloads, sequences, to_param, same_or_base. cbn -[ty_eqb]. rewrite (ty_eqb_refl (Arr (Arith AChar) n)). destruct const; reflexivity. Qed.
(** With a size the overload for bytes is taken, for pointers to UInt8 only. *)
Theorem C113_bytes sz c1 l1 a c2 l2 z2 : is_size sz ->
  (forall k, hash_call sz [Expr (Ptr k (Arith AUChar)) c1 l1 false; Expr (Arith a) c2 l2 z2] = Chosen 2) /\ (forall k, hash_call sz [Expr (Ptr k (Arith AChar)) c1 l1 false; Expr (Arith a) c2 l2 z2] = NoMatch) /\
  (forall k, hash_call sz [Expr (Ptr k (Arith AUChar)) c1 l1 false] = NoMatch).
Proof. intros H. repeat split; intros []; try (sizes H; destruct a; reflexivity); reflexivity. Qed.
(** Numbers are not hashed: no overload takes one. *)
Theorem C113_numbers sz a const lvalue : is_size sz -> hash_call sz [Expr (Arith a) const lvalue false] = NoMatch.
Proof. intros H. destruct a, lvalue; reflexivity. Qed.
(** Pointers go to the overload for terminated text; strings and views, of either constness and category, to the one for views. *)
Theorem C113_texts sz const lvalue zero : is_size sz ->
  (forall c, hash_call sz [Expr (Ptr c (Arith AChar)) const lvalue zero] = Chosen 0) /\ hash_call sz [Expr CString const lvalue zero] = Chosen 1 /\ hash_call sz [Expr CView const lvalue zero] = Chosen 1.
Proof. intros H. split; [intros []; reflexivity | split; reflexivity]. Qed.
(** What the call computes for an array with the content [m]. *)
Definition hash_array (cstr view : list N -> outcome N) (sz : arith) (const : bool) (m : list N) : option (outcome N) :=
  match hash_call sz [char_array const (length m)] with Chosen 0 => Some (cstr m) | Chosen 3 => Some (view m) | _ => None end.
(** The text of a const array is hashed up to its terminator, a const array without one is undefined behaviour. *)
Theorem C113_const_array_partial sz sc text rest : is_size sz -> bytes text -> nonzero text ->
  hash_array (CRC32_cstr sc) (CRC32_array sc) sz true (text ++ 0%N :: rest) = Some (Done (crc32 text)) /\
  (plain_text sc text -> hash_array (FNV1a32_cstr sc) (FNV1a32_array sc) sz true (text ++ 0%N :: rest) = Some (Done (fnv1a_32 text)) /\ hash_array (FNV1a64_cstr sc) (FNV1a64_array sc) sz true (text ++ 0%N :: rest) = Some (Done (fnv1a_64 text))) /\
  hash_array (CRC32_cstr sc) (CRC32_array sc) sz true text = Some (Fault FUB).
Proof.
  intros HS HB NZ. unfold hash_array. rewrite !C113_arrays by assumption. rewrite C53_CRC32_cstr, C53_unterminated by assumption. split; [reflexivity|]. split; [|reflexivity].
  intros HP. rewrite (proj2 (C54_FNV1a32_text_partial sc text rest HP) NZ), (proj2 (C54_FNV1a64_text_partial sc text rest HP) NZ). now split.
Qed.
(** In an array that is not const, the terminator and everything after it are hashed too. *)
Theorem C113_buffer_refuted sz sc m : is_size sz -> bytes m ->
  hash_array (CRC32_cstr sc) (CRC32_array sc) sz false m = Some (Done (crc32 m)) /\
  (plain_text sc m -> hash_array (FNV1a32_cstr sc) (FNV1a32_array sc) sz false m = Some (Done (fnv1a_32 m)) /\ hash_array (FNV1a64_cstr sc) (FNV1a64_array sc) sz false m = Some (Done (fnv1a_64 m))).
Proof.
  intros HS HB. unfold hash_array, CRC32_array, FNV1a32_array, FNV1a64_array. rewrite !C113_arrays by assumption. rewrite C53_CRC32_view by assumption. split; [reflexivity|].
  intros HP. rewrite (proj1 (C54_FNV1a32_text_partial sc m [] HP)), (proj1 (C54_FNV1a64_text_partial sc m [] HP)). now split.
Qed.
(** "abc" as a literal and in a buffer of 4 chars, which holds just that. *)
Theorem C113_literal_and_buffer_refuted sz : is_size sz -> let abc := [97; 98; 99; 0]%N in
  hash_array (CRC32_cstr true) (CRC32_array true) sz true abc <> hash_array (CRC32_cstr true) (CRC32_array true) sz false abc /\
  hash_array (FNV1a32_cstr true) (FNV1a32_array true) sz true abc <> hash_array (FNV1a32_cstr true) (FNV1a32_array true) sz false abc /\
  hash_array (FNV1a64_cstr true) (FNV1a64_array true) sz true abc <> hash_array (FNV1a64_cstr true) (FNV1a64_array true) sz false abc.
Proof. intros H. unfold hash_array. rewrite !C113_arrays by assumption. repeat split; vm_compute; discriminate. Qed.

(** HashCombine with two arguments updates its first argument when that is a std::size_t variable, and returns the hash of both otherwise. *)
Theorem C113_hash_combine sz a b : is_size sz ->
  hash_combine sz [a; b] = Chosen (if ty_eqb (e_ty a) (Arith sz) && e_lvalue a && negb (e_const a) then 0 else 1).
Proof.
  intros H. unfold hash_combine, resolve, HashCombine_overloads. cbn [combine range length map seq concat sequences parameters app].
  assert (I : forall e, to_param nobase noconv e (const_ref e) = Standard RExact true (Some (false, true))) by (intros e; unfold to_param, const_ref, same_or_base; now rewrite ty_eqb_refl).
  unfold sequences. cbn -[to_param const_ref any_better]. rewrite !I. unfold to_param, same_or_base, Size.
  destruct (ty_eqb (e_ty a) (Arith sz)) eqn:E; [destruct (e_lvalue a), (e_const a); reflexivity|]. destruct (e_ty a); reflexivity.
Qed.
(** One argument, or more than two: the hash of all. *)
Theorem C113_hash_combine_others sz args : args <> [] -> length args <> 2 -> hash_combine sz args = Chosen 1.
Proof.
  intros HN HL. unfold hash_combine, resolve.
  assert (V : forall l, viable (map (fun '(e, p) => to_param nobase noconv e p) (combine l (map const_ref l))) = true).
  { induction l as [|e l IH]; [reflexivity|]. cbn [map combine viable forallb]. unfold viable in IH. rewrite IH. unfold to_param, const_ref, same_or_base. now rewrite ty_eqb_refl. }
  assert (S2 : sequences nobase noconv (Candidate (fun args => match args with [] => None | _ => Some (map const_ref args) end) (Some 0)) args = Some (map (fun '(e, p) => to_param nobase noconv e p) (combine args (map const_ref args)))).
  { unfold sequences. cbn [parameters]. destruct args as [|a r]; [congruence|]. now rewrite V. }
  assert (S1 : sequences nobase noconv (Candidate (fun args => match args with [_; e] => Some [LRef false (Size sz); const_ref e] | _ => None end) (Some 1)) args = None).
  { unfold sequences. cbn [parameters]. destruct args as [|a [|b [|c r]]]; try reflexivity. cbn in HL. lia. }
  unfold HashCombine_overloads. cbn -[sequences any_better]. rewrite S1, S2. reflexivity.
Qed.
Print Assumptions C113_arrays.
Print Assumptions C113_arrays_moved.
Print Assumptions C113_bytes.
Print Assumptions C113_numbers.
Print Assumptions C113_texts.
Print Assumptions C113_const_array_partial.
Print Assumptions C113_buffer_refuted.
Print Assumptions C113_literal_and_buffer_refuted.
Print Assumptions C113_hash_combine.
Print Assumptions C113_hash_combine_others.
Example C113_example : hash_array (CRC32_cstr true) (CRC32_array true) AULong true [97; 98; 99; 0]%N = Some (Done 0x352441C2%N) /\ hash_call AULong [Expr (Ptr false (Arith AUChar)) false true false; Expr (Arith AInt) false false false] = Chosen 2 /\
  hash_call AULong [char_array false 4; Expr (Arith AInt) false false false] = NoMatch /\ hash_combine AULong [Expr (Arith AInt) false true false; Expr (Arith AInt) false true false] = Chosen 1.
Proof. repeat split; vm_compute; reflexivity. Qed.

(** *** C114: arguments of arithmetic types *)
Definition promoted (a : arith) : bool := existsb (same_arith a) [ABool; AChar; ASChar; AUChar; AShort; AUShort; AInt].
(** Set(x): all bits for bool, one bit for std::size_t; every other arithmetic type is ambiguous, the literals included. *)
Theorem C114_set_refuted sz a const lvalue zero : is_size sz ->
  resolve nobase noconv (Bitset_Set sz) [Expr (Arith a) const lvalue zero] = if same_arith a sz then Chosen 1 else if same_arith a ABool then Chosen 0 else Ambiguous.
Proof. intros H. sizes H; destruct a; reflexivity. Qed.
(** With a value it is always one bit; without argument all bits; and a pointer sets all bits. *)
Theorem C114_set_others sz a b e1 e2 : is_size sz -> e_ty e1 = Arith a -> e_ty e2 = Arith b ->
  resolve nobase noconv (Bitset_Set sz) [e1; e2] = Chosen 1 /\ resolve nobase noconv (Bitset_Set sz) [] = Chosen 0 /\
  (forall c t const lvalue, resolve nobase noconv (Bitset_Set sz) [Expr (Ptr c t) const lvalue false] = Chosen 0).
Proof. intros H E1 E2. destruct e1, e2; cbn in E1, E2; subst. split; [|split; [reflexivity|]]; [sizes H; destruct a, b; reflexivity | intros; sizes H; reflexivity]. Qed.
(** Reset(x) resets one bit for every arithmetic type, bool included: Reset(false) is not "set all bits to false". *)
Theorem C114_reset sz a const lvalue zero : is_size sz -> resolve nobase noconv (Bitset_Reset sz) [Expr (Arith a) const lvalue zero] = Chosen 1 /\ resolve nobase noconv (Bitset_Reset sz) [] = Chosen 0.
Proof. intros H. split; [sizes H; destruct a; reflexivity | reflexivity]. Qed.
(** Bitset(x) takes the bits of x, never a number of bits. *)
Theorem C114_bitset_value sz a const lvalue zero : is_size sz -> construct_bitset sz [Expr (Arith a) const lvalue zero] = Chosen 7.
Proof. intros H. sizes H; destruct a, zero; reflexivity. Qed.
(** Bitset(n, x) is n bits of value x, unless n is the literal 0: then it is so for bool only, with a std::size_t it reads characters from a null pointer. *)
Theorem C114_bitset_size_partial sz a b c1 l1 c2 l2 z2 : is_size sz -> construct_bitset sz [Expr (Arith a) c1 l1 false; Expr (Arith b) c2 l2 z2] = Chosen 1.
Proof. intros H. sizes H; destruct a, b; reflexivity. Qed.
Theorem C114_bitset_zero_refuted sz b c2 l2 z2 : is_size sz ->
  construct_bitset sz [Expr (Arith AInt) false false true; Expr (Arith b) c2 l2 z2] = if same_arith b ABool then Chosen 1 else if same_arith b sz then Chosen 3 else Ambiguous.
Proof. intros H. sizes H; destruct b; reflexivity. Qed.
(** SparsePtr(p, stride): int and what promotes to it, and std::size_t; every other type of stride is ambiguous (unsigned int, long, std::ptrdiff_t). *)
Theorem C114_sparse_refuted sz t a p const lvalue zero : is_size sz -> e_ty p = Ptr false t ->
  resolve nobase noconv (SparsePtr_constructors sz) [p; Expr (Arith a) const lvalue zero] = if same_arith a sz then Chosen 1 else if promoted a then Chosen 0 else Ambiguous.
Proof.
  intros H E. unfold resolve, SparsePtr_constructors, sequences. cbn -[to_param any_better Nat.eqb].
  assert (P : exists r i, to_param nobase noconv p (ByVal (Ptr false Void)) = Standard r i None).
  { unfold to_param, to_value, decay. rewrite E. cbn [ty_eqb Bool.eqb andb negb]. destruct (ty_eqb t Void); eauto. destruct t; eauto. }
  destruct P as (r & i & P). rewrite P. sizes H; destruct a; cbn; destruct r, i; reflexivity.
Qed.
(** nullptr too. *)
Theorem C114_sparse_null sz a c1 l1 const lvalue zero : is_size sz ->
  resolve nobase noconv (SparsePtr_constructors sz) [Expr NullptrT c1 l1 false; Expr (Arith a) const lvalue zero] = if same_arith a sz then Chosen 1 else if promoted a then Chosen 0 else Ambiguous.
Proof. intros H. sizes H; destruct a; reflexivity. Qed.
(** A pointer to const is not accepted for T not const, whatever the stride. *)
Theorem C114_sparse_const sz t a p const lvalue zero : is_size sz -> e_ty p = Ptr true t ->
  resolve nobase noconv (SparsePtr_constructors sz) [p; Expr (Arith a) const lvalue zero] = NoMatch.
Proof. intros H E. unfold resolve, SparsePtr_constructors, sequences, to_param, to_value, decay. cbn -[Nat.eqb]. now rewrite E. Qed.
(** FixedVector<T>(n, x): when both arguments have the same type, the constructor from iterators is selected and does not compile, unless that type and T are
    std::size_t. *)
Theorem C114_vector_refuted sz T a b c1 l1 z1 c2 l2 z2 : is_size sz ->
  make_vector sz noconv (Arith T) (Expr (Arith a) c1 l1 z1) (Expr (Arith b) c2 l2 z2) = if negb (same_arith a b) || (same_arith a sz && same_arith T sz) then Sized else DoesNotCompile.
Proof. intros H. sizes H; destruct T, a, b; try reflexivity; destruct c2, l2; reflexivity. Qed.
(** Pointers to the same type make a range, pointers that differ in const do not. *)
Theorem C114_vector_range sz T t c1 c2 k1 l1 k2 l2 : is_size sz -> t <> Void ->
  make_vector sz noconv (Arith T) (Expr (Ptr c1 t) k1 l1 false) (Expr (Ptr c2 t) k2 l2 false) = if Bool.eqb c1 c2 then FromRange else DoesNotCompile.
Proof.
  intros H V. unfold make_vector, resolve, FixedVector_constructors, sequences. cbn -[to_param any_better ty_eqb decay]. unfold decay. cbn [e_ty e_const]. cbn [ty_eqb].
  assert (N : forall c k l, to_param nobase noconv (Expr (Ptr c t) k l false) (ByVal (Size sz)) = NoConversion) by (intros; sizes H; reflexivity).
  rewrite N. cbn [andb]. rewrite (ty_eqb_refl t), andb_true_r. destruct (Bool.eqb c1 c2) eqn:E; [|reflexivity]. apply Bool.eqb_prop in E. subst.
  unfold to_param, to_value, decay. cbn -[ty_eqb]. rewrite !(ty_eqb_refl (Ptr c2 t)). cbn. destruct t; reflexivity || congruence.
Qed.
Print Assumptions C114_set_refuted.
Print Assumptions C114_set_others.
Print Assumptions C114_reset.
Print Assumptions C114_bitset_value.
Print Assumptions C114_bitset_size_partial.
Print Assumptions C114_bitset_zero_refuted.
Print Assumptions C114_sparse_refuted.
Print Assumptions C114_sparse_null.
Print Assumptions C114_sparse_const.
Print Assumptions C114_vector_refuted.
Print Assumptions C114_vector_range.
(** b.Set(5), b.Set(sizeof x), FixedVector<int, 8>(3, 7), FixedVector<float, 8>(3, 1.f), SparsePtr(p, 4u) *)
Example C114_example : let int_ := Expr (Arith AInt) false false false in
  resolve nobase noconv (Bitset_Set AULong) [int_] = Ambiguous /\ resolve nobase noconv (Bitset_Set AULong) [Expr (Arith AULong) false false false] = Chosen 1 /\
  make_vector AULong noconv (Arith AInt) int_ int_ = DoesNotCompile /\ make_vector AULong noconv (Arith AFloat) int_ (Expr (Arith AFloat) false false false) = Sized /\
  resolve nobase noconv (SparsePtr_constructors AULong) [Expr (Ptr false (Class 0)) false true false; Expr (Arith AUInt) false false false] = Ambiguous.
Proof. repeat split; reflexivity. Qed.

(** *** C115: functions next to a template that takes anything *)
Definition obj (c : nat) (const lvalue : bool) : expr := Expr (Class c) const lvalue false.
(** Bitset from text, strings, views and bitsets. *)
Theorem C115_bitset sz n const lvalue : is_size sz ->
  construct_bitset sz [char_array true n] = Chosen 2 /\ construct_bitset sz [Expr CharPtr const lvalue false] = Chosen 2 /\
  construct_bitset sz [obj 2 const lvalue] = Chosen 6 /\ construct_bitset sz [obj 1 const lvalue] = Chosen 5 /\
  construct_bitset sz [obj 0 const true] = Chosen 4 /\ construct_bitset sz [obj 0 false false] = Chosen 8.
Proof. intros H. repeat split; try (destruct const, lvalue; reflexivity). Qed.
(** Characters that are not const are taken for an integer, which does not compile. *)
Theorem C115_bitset_buffer_refuted sz block n const lvalue : is_size sz ->
  construct_bitset sz [char_array false n] = Chosen 7 /\ construct_bitset sz [Expr (Ptr false (Arith AChar)) const lvalue false] = Chosen 7 /\
  construct_compiles sz block (char_array false n) = false /\ construct_compiles sz block (Expr (Ptr false (Arith AChar)) const lvalue false) = false.
Proof. intros H. repeat split; reflexivity. Qed.
Local Ltac unroll := unfold resolve, Bitset_assignments, Bitset_constructors, sequences, by_value_template, fn, to_param, to_value, same_or_base, user; cbn -[ty_eqb any_better]; rewrite ?ty_eqb_refl; cbn; reflexivity.
(** Assignment accepts what construction accepts: the template, selected for texts and numbers, constructs. *)
Theorem C115_bitset_assignment sz block e : is_size sz -> e_const e && negb (e_lvalue e) = false -> e_zero e = false -> assign_compiles sz block e = construct_compiles sz block e.
Proof.
  intros H HC HZ. destruct e as [t c l z]. cbn in HC, HZ. subst z. unfold assign_compiles, construct_compiles, assign_bitset, construct_bitset.
  destruct t as [a|p t|t n| | |k].
  - sizes H; destruct a; reflexivity.
  - sizes H; destruct p, t as [[]| | | | |]; try reflexivity; unroll.
  - sizes H; destruct c, t as [[]| | | | |]; try reflexivity; unroll.
  - sizes H; reflexivity.
  - sizes H; reflexivity.
  - sizes H; destruct k as [|[|[|k]]]; destruct c, l; cbn in HC; try discriminate; try reflexivity; unroll.
Qed.
(** The assignment selected: bitsets are copied and moved by the functions for them, views by theirs; everything else goes to the template. *)
Theorem C115_bitset_assigned a const lvalue zero :
  assign_bitset (obj 0 const true) = Chosen 0 /\ assign_bitset (obj 0 false false) = Chosen 3 /\ assign_bitset (obj 1 const lvalue) = Chosen 1 /\
  assign_bitset (obj 2 const lvalue) = Chosen 2 /\ assign_bitset (Expr CharPtr const lvalue false) = Chosen 2 /\ assign_bitset (Expr (Arith a) const lvalue zero) = Chosen 2.
Proof. repeat split; destruct a, const, lvalue; reflexivity. Qed.
(** Numbers: integers always compile, floating point numbers when the block is at least as large, as only then nothing is shifted. *)
Definition floating_size (a : arith) : nat := match a with AFloat => 4 | ADouble => 8 | ALDouble => 16 | _ => 0 end.
Theorem C115_bitset_number sz block a const lvalue zero : is_size sz ->
  (construct_compiles sz block (Expr (Arith a) const lvalue zero) = true <-> floating_size a <= block) /\
  construct_compiles sz block (Expr NullptrT const lvalue false) = false.
Proof.
  intros H. unfold construct_compiles. split; [|reflexivity].
  replace (construct_bitset sz [Expr (Arith a) const lvalue zero]) with (Chosen 7) by (symmetry; now apply C114_bitset_value).
  cbn [decay e_ty]. unfold value_constructor_compiles. destruct a; cbn [floating_size]; try rewrite Nat.leb_le; intuition lia.
Qed.
(** PrivateImpl: its pointer, nullptr, other handles; no argument or several construct the object in place. *)
Theorem C115_private_impl const lvalue : let call := resolve nobase noconv PrivateImpl_constructors in
  call [Expr (Ptr false (Class 1)) const lvalue false] = Chosen 1 /\ call [Expr NullptrT const lvalue false] = Chosen 0 /\ call [] = Chosen 2 /\
  call [obj 0 const true] = Chosen 3 /\ call [obj 0 false false] = Chosen 4 /\ call [obj 1 const lvalue] = Chosen 2.
Proof. repeat split; destruct const, lvalue; reflexivity. Qed.
(** A pointer to a class derived from T is not taken over: the template is selected and constructs a T from it. So is the literal 0. *)
Theorem C115_private_impl_derived_refuted derived d const lvalue : derived d 1 = true -> d <> 1 ->
  resolve derived noconv PrivateImpl_constructors [Expr (Ptr false (Class d)) const lvalue false] = Chosen 2 /\
  resolve derived noconv PrivateImpl_constructors [Expr (Arith AInt) false false true] = Chosen 2.
Proof.
  intros HD N. split; [|reflexivity]. unfold resolve, PrivateImpl_constructors, sequences. cbn -[to_param any_better ty_eqb forward].
  assert (F : exists b, to_param derived noconv (Expr (Ptr false (Class d)) const lvalue false) (forward (Expr (Ptr false (Class d)) const lvalue false)) = Standard RExact true b).
  { unfold forward. cbn [e_lvalue e_const e_ty]. destruct lvalue, const; unfold to_param, same_or_base; cbn [e_ty]; rewrite ty_eqb_refl; cbn; eauto. }
  destruct F as (b & ->).
  assert (P : to_param derived noconv (Expr (Ptr false (Class d)) const lvalue false) (ByVal (Ptr false (Class 1))) = Standard RConversion false None).
  { unfold to_param, to_value, decay. cbn. replace (d =? 1) with false by (symmetry; now apply Nat.eqb_neq). now rewrite HD. }
  rewrite P. cbn. destruct b as [[[] []]|]; reflexivity.
Qed.
(** Signal::Connect: a Callback variable is copied; everything else is moved in or converted. *)
Theorem C115_connect c const lvalue : let call := resolve nobase callable_converts Connect_overloads in
  call [obj 0 const true] = Chosen 0 /\ call [obj 0 false false] = Chosen 1 /\ (c <> 0 -> call [obj c const lvalue] = Chosen 1) /\ (forall a zero, call [Expr (Arith a) const lvalue zero] = NoMatch).
Proof. split; [destruct const; reflexivity|]. split; [reflexivity|]. split; [intros N; destruct c; [congruence|]; reflexivity|]. intros [] zero; reflexivity. Qed.
(** MovableValue: const variables are copied and temporaries moved; a variable that is not const goes to the template (C66). *)
Theorem C115_movable : let call := resolve nobase movable_converts Movable_assignments in
  call [obj 0 true true] = Chosen 1 /\ call [obj 0 false false] = Chosen 2 /\ call [obj 0 false true] = Chosen 0 /\ forall const lvalue, call [obj 1 const lvalue] = Chosen 0.
Proof. repeat split. intros [] []; reflexivity. Qed.
(** SparsePtr: p - n moves the pointer, p - q is the difference for operands of the same type. *)
Theorem C115_sparse_difference self e : self < 2 ->
  (e_ty e = Class self -> resolve nobase sparse_converts (SparsePtr_minus self) [e] = Chosen 1) /\ (forall a, e_ty e = Arith a -> resolve nobase sparse_converts (SparsePtr_minus self) [e] = Chosen 0 /\ minus_compiles self e = true).
Proof.
  intros HS. destruct e as [t c l z]. cbn [e_ty]. split; intros; subst.
  - destruct self as [|[|]]; [destruct c, l; reflexivity..|lia].
  - unfold minus_compiles. destruct self as [|[|]]; [destruct a; split; reflexivity..|lia].
Qed.
(** The difference of a const and a non-const one does not compile, although the conversion exists. *)
Theorem C115_sparse_difference_refuted const lvalue : let q := obj 0 const lvalue in
  sparse_converts (Class 0) (Class 1) = true /\ resolve nobase sparse_converts (SparsePtr_minus 1) [q] = Chosen 0 /\ minus_compiles 1 q = false /\ minus_compiles 0 (obj 1 const lvalue) = false.
Proof. repeat split; destruct const, lvalue; reflexivity. Qed.
(** CountOf: arrays, containers; const arrays of chars go to the overload without definition. *)
Theorem C115_count_of t n const lvalue : let call e := resolve nobase noconv CountOf_overloads [e] in
  (lvalue = true -> call (Expr (Arr t n) const lvalue false) = Chosen (if const && ty_eqb t (Arith AChar) then 2 else 0)) /\ (forall c, call (obj c const lvalue) = Chosen 1).
Proof.
  assert (I : forall e k, e_lvalue e = true -> (k || negb (e_const e) = true) -> to_param nobase noconv e (LRef k (e_ty e)) = Standard RExact true (Some (false, k))).
  { intros e k HL HK. unfold to_param, same_or_base. rewrite ty_eqb_refl, HL, orb_true_r, HK. reflexivity. }
  split.
  - intros ->. unfold resolve, CountOf_overloads, sequences. cbn -[to_param any_better ty_eqb]. unfold const_ref. cbn [e_ty].
    pose (e := Expr (Arr t n) const true false). pose proof (I e true eq_refl eq_refl) as I1. pose proof (I e const eq_refl ltac:(now destruct const)) as I2. cbn [e_ty e] in I1, I2. subst e.
    cbn [map combine]. rewrite I1, I2. destruct t as [[]|[]| | | |]; destruct const; try reflexivity; cbn -[to_param any_better]; rewrite I1; reflexivity.
  - intros c. unfold resolve, CountOf_overloads, sequences, const_ref, to_param, same_or_base. cbn -[any_better ty_eqb]. rewrite !ty_eqb_refl. reflexivity.
Qed.
Print Assumptions C115_bitset.
Print Assumptions C115_bitset_buffer_refuted.
Print Assumptions C115_bitset_assignment.
Print Assumptions C115_bitset_assigned.
Print Assumptions C115_bitset_number.
Print Assumptions C115_private_impl.
Print Assumptions C115_private_impl_derived_refuted.
Print Assumptions C115_connect.
Print Assumptions C115_movable.
Print Assumptions C115_sparse_difference.
Print Assumptions C115_sparse_difference_refuted.
Print Assumptions C115_count_of.
Example C115_example : construct_compiles AULong 8 (char_array true 5) = true /\ construct_compiles AULong 8 (char_array false 5) = false /\ assign_compiles AULong 8 (char_array true 5) = true /\
  construct_compiles AULong 4 (Expr (Arith ADouble) false true false) = false /\ construct_compiles AULong 8 (Expr (Arith ADouble) false true false) = true /\
  resolve nobase noconv CountOf_overloads [char_array false 4] = Chosen 0.
Proof. repeat split; reflexivity. Qed.
