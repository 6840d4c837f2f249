(** * C141: what is declared constexpr and can be used in constant expressions *)

From Coq Require Import List Bool ZArith String Ascii Lia.
Import ListNotations.
From Verif Require Import ConstexprModel.

(** ** Literal types, by their subobjects *)

(** [part t u]: [u] is [t] or the type of a member, base or array element of it, at any depth. *)
Inductive part : ty -> ty -> Prop :=
| part_self t : part t t
| part_member d c ms m u : In m ms -> part m u -> part (Class d c ms) u
| part_element t u : part t u -> part (Array t) u.

(** [within t u]: also what a [std::optional] or [std::variant] may hold. *)
Inductive within : ty -> ty -> Prop :=
| within_self t : within t t
| within_member d c ms m u : In m ms -> within m u -> within (Class d c ms) u
| within_element t u : within t u -> within (Array t) u
| within_held ts m u : In m ts -> within m u -> within (Choice ts) u.

(** The destructor of this type itself may run in a constant expression. *)
Definition own_dtor (s : std) (t : ty) : Prop :=
  match t with
  | Class PlainDtor _ _ => False
  | Class ConstexprDtor _ _ | Vector _ => s <> Cpp17
  | _ => True
  end.

Section Induction.
  Variable P : ty -> Prop.
  Hypothesis HS : P Scalar.
  Hypothesis HC : forall d c ms, Forall P ms -> P (Class d c ms).
  Hypothesis HA : forall t, P t -> P (Array t).
  Hypothesis HV : forall t, P t -> P (Vector t).
  Hypothesis HH : forall ts, Forall P ts -> P (Choice ts).

  Fixpoint ty_nested (t : ty) : P t :=
    let fix all (l : list ty) : Forall P l :=
      match l with
      | [] => Forall_nil P
      | x :: r => Forall_cons x (ty_nested x) (all r)
      end in
    match t with
    | Scalar => HS
    | Class d c ms => HC d c ms (all ms)
    | Array t => HA t (ty_nested t)
    | Vector t => HV t (ty_nested t)
    | Choice ts => HH ts (all ts)
    end.
End Induction.

Lemma forallb_both {A} (f : A -> bool) (Q : A -> Prop) l :
  Forall (fun x => f x = true <-> Q x) l ->
  (forallb f l = true <-> forall x, In x l -> Q x).
Proof.
  intros H. rewrite forallb_forall. rewrite Forall_forall in H.
  split; intros G x Hx; apply (H x Hx); now apply G.
Qed.

Lemma later s : at_least_20 s = true <-> s <> Cpp17.
Proof. destruct s; cbn; split; congruence. Qed.

Theorem C141_ends : forall s t,
  ends s t = true <-> forall u, within t u -> own_dtor s u.
Proof.
  intros s t; induction t as [|d c ms IH|t IH|t IH|ts IH] using ty_nested.
  - split; [|reflexivity]. intros _ u H. inversion H; subst; exact Logic.I.
  - pose proof (forallb_both _ _ _ IH) as HF.
    assert (HM : (forall u, within (Class d c ms) u -> own_dtor s u)
                 <-> own_dtor s (Class d c ms)
                     /\ (forall x, In x ms -> forall u, within x u -> own_dtor s u)).
    { split.
      - intros H. split; [apply H; constructor|].
        intros x Hx u Hu. apply H. econstructor; eauto.
      - intros [H1 H2] u Hu. inversion Hu; subst; [exact H1|eapply H2; eauto]. }
    rewrite HM, <- HF. cbn [ends own_dtor].
    destruct d; rewrite ?andb_true_iff, ?later; intuition congruence.
  - cbn [ends]. rewrite IH. split; intros H u Hu.
    + inversion Hu; subst; [exact Logic.I|now apply H].
    + apply H. now constructor.
  - cbn [ends]. rewrite later. split; [intros H u Hu|intros H; apply (H (Vector t)); constructor].
    inversion Hu; subst; exact H.
  - cbn [ends]. rewrite (forallb_both _ _ _ IH). split; intros H.
    + intros u Hu. inversion Hu; subst; [exact Logic.I|eapply H; eauto].
    + intros x Hx u Hu. apply H. econstructor; eauto.
Qed.

(** In C++17 these are the types with a trivial destructor. *)
Theorem C141_trivial : forall t, ends Cpp17 t = trivial t.
Proof.
  intros t; induction t as [|d c ms IH|t IH|t IH|ts IH] using ty_nested; cbn; trivial.
  - destruct d; try reflexivity. induction IH as [|x l E _ IHl]; cbn; congruence.
  - induction IH as [|x l E _ IHl]; cbn; congruence.
Qed.

Lemma part_within t u : part t u -> within t u.
Proof. induction 1; econstructor; eauto. Qed.

Lemma within_trans t u w : within t u -> within u w -> within t w.
Proof. induction 1; intros; [assumption|econstructor; eauto..]. Qed.

(** A type is literal exactly when every destructor that can run is constexpr in this standard and
    every class among its subobjects has a constexpr constructor. *)
Theorem C141_literal : forall s t,
  literal s t = true <->
  (forall u, within t u -> own_dtor s u) /\
  (forall d c ms, part t (Class d c ms) -> c = true).
Proof.
  intros s t; induction t as [|d c ms IH|t IH|t IH|ts IH] using ty_nested.
  - split; [|reflexivity]. intros _. split; intros; match goal with H : _ |- _ => inversion H; subst end; exact Logic.I.
  - cbn [literal]. rewrite !andb_true_iff, C141_ends, (forallb_both _ _ _ IH). split.
    + intros [[H1 H2] H3]. split; [exact H1|].
      intros d' c' ms' H. inversion H; subst; [reflexivity|].
      eapply (proj2 (H3 _ ltac:(eassumption))); eauto.
    + intros [H1 H2]. split; [split; [exact H1|apply (H2 d c ms); constructor]|].
      intros x Hx. split.
      * intros u Hu. apply H1. econstructor; eauto.
      * intros d' c' ms' H. apply (H2 d' c' ms'). econstructor; eauto.
  - cbn [literal]. rewrite IH. split; intros [H1 H2]; split.
    + intros u Hu. inversion Hu; subst; [exact Logic.I|now apply H1].
    + intros d c ms H. inversion H; subst. eapply H2; eauto.
    + intros u Hu. apply H1. now constructor.
    + intros d c ms H. apply (H2 d c ms). now constructor.
  - cbn [literal]. rewrite C141_ends. split; [intros H; split; [exact H|]|tauto].
    intros d c ms H'. inversion H'.
  - cbn [literal]. rewrite C141_ends. split; [intros H; split; [exact H|]|tauto].
    intros d c ms H'. inversion H'.
Qed.

(** Types that are literal in C++17 stay literal. *)
Theorem C141_newer : forall s t, literal Cpp17 t = true -> literal s t = true.
Proof.
  intros s t. rewrite !C141_literal. intros [H1 H2]. split; [|exact H2].
  intros u Hu. specialize (H1 u Hu). destruct u as [|[] | | |]; cbn in *; congruence.
Qed.

(** ** The classes *)

(** Wrappers are literal exactly when what they hold allows it; a Result only needs its value and
    its error to be destructible in a constant expression. *)
Theorem C141_wrappers : forall s t v e,
  (literal s (enum_array t) = literal s t) /\
  (literal s (movable_value t) = literal s t) /\
  (literal s (bitset t) = literal s t) /\
  (literal s (result v e) = ends s v && ends s e) /\
  (literal s (result_void e) = ends s e) /\
  literal s movable_literal = true /\ literal s flags = true /\
  literal s flags_iterator = true /\ literal s bit_iterator = true.
Proof.
  intros s t v e.
  assert (L : forall u, literal s u = true -> ends s u = true).
  { intros u. rewrite C141_literal, C141_ends. tauto. }
  assert (A : forall u, (ends s u && true) && true && (literal s u && true) = literal s u).
  { intros u. specialize (L u). destruct (literal s u), (ends s u); cbn; try reflexivity.
    discriminate (L eq_refl). }
  repeat match goal with |- _ /\ _ => split end; cbn [enum_array movable_value bitset result
    result_void literal ends forallb movable_literal flags flags_iterator bit_iterator];
    try reflexivity.
  - apply A.
  - apply A.
  - specialize (L t). destruct (literal s t), (ends s t); cbn; try reflexivity.
    discriminate (L eq_refl).
  - destruct (ends s v), (ends s e); reflexivity.
  - destruct (ends s e); reflexivity.
Qed.

(** A bitset on [std::vector] is literal from C++20 on. *)
Theorem C141_dynamic_bitset : forall s, literal s dynamic_bitset = true <-> s <> Cpp17.
Proof. intros []; cbn; split; congruence. Qed.

(** Every constructor of FixedVector is declared constexpr, and so is every function of bitsets
    built on it; none of these objects can exist in a constant expression, in any standard. *)
Theorem C141_fixed_refuted : forall s f,
  literal s (fixed_vector f) = false /\
  literal s fixed_bitset = false /\ literal s hybrid_bitset = false /\
  constant s fixed_vector_element = false.
Proof. intros s f. repeat match goal with |- _ /\ _ => split end; destruct s; reflexivity. Qed.

(** The destructor is the only thing that prevents it: constructors and members are fine whenever
    the fallback is, so the same class without a destructor of its own would be literal. *)
Theorem C141_fixed_reason : forall s f,
  exists d c ms, fixed_vector f = Class d c ms /\ d = PlainDtor /\
  (literal s (Class Implicit c ms) = true <->
   match f with Some t => literal s t = true | None => True end).
Proof.
  intros s f. unfold fixed_vector. do 3 eexists. split; [reflexivity|]. split; [reflexivity|].
  destruct f as [t|]; cbn; [|tauto].
  assert (L : literal s t = true -> ends s t = true) by (rewrite C141_literal, C141_ends; tauto).
  destruct (literal s t), (ends s t); cbn; try tauto; try (split; congruence).
Qed.

(** Anything with a FixedVector inside, at any depth, is not literal either. *)
Theorem C141_fixed_inside_refuted : forall s t f,
  within t (fixed_vector f) -> literal s t = false.
Proof.
  intros s t f H. destruct (literal s t) eqn:E; [|reflexivity].
  apply C141_literal in E. destruct (proj1 E _ H).
Qed.

(** ** Functions *)

(** NumberEquals of a smaller and a larger value is not a constant expression in C++17, while the
    same call with its arguments exchanged is. *)
Theorem C141_number_equals : forall s a b,
  constant s (number_equals a b) = true <-> s <> Cpp17 \/ (b <= a)%Z.
Proof.
  intros s a b. unfold number_equals. destruct (Z.ltb_spec a b); destruct s; cbn;
    split; intros; try congruence; try (left; congruence); try (right; lia);
    destruct H0; [congruence|lia].
Qed.

Theorem C141_number_equals_refuted :
  constant Cpp17 (number_equals 1 2) = false /\ constant Cpp17 (number_equals 2 1) = true.
Proof. split; reflexivity. Qed.

(** The text of a bitset: the characters 0 and 1 only. *)
Fixpoint binary (text : string) : Prop :=
  match text with
  | EmptyString => True
  | String c rest => (c = "0"%char \/ c = "1"%char) /\ binary rest
  end.

Lemma parse_binary s text : constant s (parse_chars text) = true <-> binary text.
Proof.
  induction text as [|c rest IH]; [split; [intros _; exact Logic.I|reflexivity]|].
  cbn [parse_chars constant forallb binary].
  change (forallb (permitted s) (parse_chars rest)) with (constant s (parse_chars rest)).
  rewrite andb_true_iff, IH. unfold parse_char.
  destruct (Ascii.eqb_spec c "1") as [->|N1]; [cbn; tauto|].
  destruct (Ascii.eqb_spec c "0") as [->|N0]; [cbn; tauto|].
  cbn. split; [intros [H _]; discriminate|intros [[]]; congruence].
Qed.

Theorem C141_bitset_text : forall s c text,
  (constant s (parse_view c text) = true <-> literal s c = true /\ binary text) /\
  (constant s (parse_string c text) = true <->
     s <> Cpp17 /\ literal s c = true /\ binary text) /\
  (constant s (assign_view c text) = true <->
     s <> Cpp17 /\ literal s c = true /\ binary text).
Proof.
  intros s c text. pose proof (proj1 (proj2 (proj2 (C141_wrappers s c c c)))) as W.
  assert (P : constant s (parse c text) = true <-> literal s c = true /\ binary text).
  { unfold parse. cbn [constant forallb permitted]. rewrite W, andb_true_iff.
    change (forallb (permitted s) (parse_chars text)) with (constant s (parse_chars text)).
    rewrite parse_binary. tauto. }
  split; [exact P|]. split.
  - unfold parse_string. cbn [constant forallb permitted literal ends].
    change (forallb (permitted s) (parse c text)) with (constant s (parse c text)).
    rewrite andb_true_iff, P, later. tauto.
  - unfold assign_view, constant. rewrite forallb_app, andb_true_iff.
    change (forallb (permitted s) (parse c text)) with (constant s (parse c text)).
    rewrite P. cbn. rewrite !andb_true_iff, later. tauto.
Qed.

(** Declared constexpr and never constant: bitsets from C strings, reading packed bytes, the
    reference to a bit, placement new; swapping the bytes of a long double. *)
Theorem C141_never_refuted : forall s c text b valid,
  constant s (parse_c_string c text) = false /\
  constant s (write valid c) = false /\
  constant s (index_mutable c) = false /\ literal s bit_reference = false /\
  constant s placement_new = false /\
  constant s (byte_swap b LongDouble) = false.
Proof.
  intros s c text b valid. repeat match goal with |- _ /\ _ => split end;
    cbn; rewrite ?andb_false_r; try reflexivity.
  destruct valid; reflexivity.
Qed.

(** Reading a bit of a const bitset is constant in range. *)
Theorem C141_index_const : forall s c size i,
  constant s (index_const c size i) = true <-> literal s c = true /\ i < size.
Proof.
  intros s c size i. pose proof (proj1 (proj2 (proj2 (C141_wrappers s c c c)))) as W.
  unfold index_const, constant. cbn [forallb permitted]. rewrite W, andb_true_iff.
  destruct (Nat.ltb_spec i size); cbn; intuition (try congruence; try lia).
Qed.

(** Moving a MovableLiteral needs C++20, moving a MovableValue does not. *)
Theorem C141_movable : forall s t,
  (constant s movable_literal_assign = true <-> s <> Cpp17) /\
  (constant s (movable_value_assign t) = literal s t).
Proof.
  intros s t. split; [destruct s; cbn; split; congruence|].
  unfold movable_value_assign, constant. cbn [forallb permitted].
  rewrite (proj1 (proj2 (C141_wrappers s t t t))), !andb_true_r. reflexivity.
Qed.

(** Converting a Result to one of other types needs C++20, except for an Ok without value. *)
Theorem C141_result_conversion : forall s v e v2 e2 ok,
  (constant s (convert_result v e v2 e2) = true <->
     s <> Cpp17 /\ ends s v = true /\ ends s e = true /\ ends s v2 = true /\ ends s e2 = true) /\
  (constant s (convert_result_void e e2 ok) = true <->
     (s <> Cpp17 \/ ok = true) /\ ends s e = true /\ ends s e2 = true) /\
  (constant s (result_value v e ok) = true <->
     ok = true /\ ends s v = true /\ ends s e = true).
Proof.
  intros s v e v2 e2 ok.
  assert (W : forall v e, literal s (result v e) = ends s v && ends s e)
    by (intros x y; apply (C141_wrappers s x x y)).
  assert (W0 : forall e, literal s (result_void e) = ends s e)
    by (intros x; apply (C141_wrappers s x x x)).
  split; [|split].
  - unfold convert_result, constant. cbn [forallb permitted]. rewrite !W, !andb_true_iff, later.
    tauto.
  - unfold convert_result_void, constant. rewrite forallb_app.
    cbn [forallb permitted]. rewrite !W0, !andb_true_iff.
    destruct ok; cbn; rewrite ?andb_true_r, ?later; tauto || (split; intros; intuition congruence).
  - unfold result_value, constant. cbn [forallb permitted]. rewrite W, !andb_true_iff.
    destruct ok; cbn; intuition congruence.
Qed.

(** Byte order: the same call can be constant on one host and not on another. *)
Theorem C141_endianness : forall s little b k,
  (constant s (byte_swap b k) = true <->
     match k with Byte | Integer => True | FloatOrDouble => b = true | LongDouble => False end) /\
  (constant s (big_endian_to_host little b k) = true <->
     little = false \/ constant s (byte_swap b k) = true) /\
  (constant s (little_endian_to_host little b k) = true <->
     little = true \/ constant s (byte_swap b k) = true).
Proof.
  intros s little b k. destruct k, b, little; cbn; intuition congruence.
Qed.

(** MultiplyAdd is constant exactly when the platform has no fast fused operation. *)
Theorem C141_multiply_add : forall s fast,
  constant s (multiply_add fast) = true <-> fast = false.
Proof. intros s []; cbn; split; congruence. Qed.

(** Destroying in place is constant when the pointer is null or the destructor is. *)
Theorem C141_placement_destroy : forall s t null,
  constant s (placement_destroy s t null) = true <-> null = true \/ ends s t = true.
Proof. intros s t []; cbn; [tauto|]. destruct (ends s t); cbn; intuition congruence. Qed.

(** Flags: counting is never constant, and looping is exactly when there is nothing to loop over. *)
Theorem C141_flags : forall s v,
  constant s flags_count = false /\
  (constant s (flags_for v) = true <-> v = 0%N).
Proof.
  intros s v. split; [destruct s; reflexivity|].
  unfold flags_for, constant. rewrite forallb_app. cbn [flags_loop].
  destruct (N.eqb_spec v 0) as [->|N]; [destruct s; cbn; tauto|].
  cbn. split; [discriminate|congruence].
Qed.

(** The number of functions called that are not declared constexpr: two for each flag. *)
Fixpoint ones (p : positive) : nat :=
  match p with xH => 1 | xO q => ones q | xI q => S (ones q) end.

Definition flag_count (v : N) : nat := match v with N0 => 0 | Npos p => ones p end.

Definition is_call (x : step) : bool := match x with NotConstexpr => true | _ => false end.

Lemma without_lowest p : flag_count (N.land (Npos p) (Npos p - 1)) = pred (ones p).
Proof.
  induction p as [p IH|p IH|]; [| |reflexivity].
  - assert (D : Pos.land p p = Npos p) by (rewrite <- (N.land_diag (Npos p)); reflexivity).
    cbn. rewrite D. reflexivity.
  - assert (E : N.land (Npos p~0) (Npos p~0 - 1) = (2 * N.land (Npos p) (Npos p - 1))%N).
    { replace (Npos p~0 - 1)%N with (2 * (Npos p - 1) + 1)%N by lia.
      change (Npos p~0) with (2 * Npos p)%N.
      apply N.bits_inj. intros n. rewrite N.land_spec.
      destruct (N.zero_or_succ n) as [->|[m ->]].
      - rewrite !N.testbit_even_0. reflexivity.
      - rewrite !N.testbit_even_succ, N.testbit_odd_succ, N.land_spec by lia. reflexivity. }
    rewrite E. cbn [ones]. rewrite <- IH. destruct (N.land _ _); reflexivity.
Qed.

Lemma ones_pos p : 0 < ones p.
Proof. induction p; cbn; lia. Qed.

Lemma ones_size p : ones p <= Pos.size_nat p.
Proof. induction p; cbn; lia. Qed.

Theorem C141_flags_calls : forall v,
  List.length (filter is_call (flags_for v)) = 2 * flag_count v.
Proof.
  assert (L : forall fuel v, flag_count v < fuel ->
            List.length (filter is_call (flags_loop fuel v)) = 2 * flag_count v).
  { induction fuel as [|fuel IH]; intros v Hf; [lia|]. cbn [flags_loop].
    destruct v as [|p]; [reflexivity|]. cbn [N.eqb filter is_call List.length].
    pose proof (without_lowest p) as W. pose proof (ones_pos p). cbn [flag_count] in *.
    rewrite IH, W by lia. lia. }
  intros v. unfold flags_for. cbn [app filter is_call]. apply L.
  destruct v as [|p]; cbn; [lia|]. pose proof (ones_size p). lia.
Qed.

Example C141_example :
  constant Cpp20 (assign_view (Vector Scalar) "0110") = true /\
  constant Cpp17 (assign_view (Vector Scalar) "0110") = false /\
  constant Cpp20 (parse_view (Vector Scalar) "012") = false /\
  literal Cpp17 (result Scalar (Vector Scalar)) = false /\
  literal Cpp20 (result Scalar (Vector Scalar)) = true /\
  within hybrid_bitset (fixed_vector (Some (Vector Scalar))).
Proof.
  repeat match goal with |- _ /\ _ => split end; try reflexivity.
  econstructor; [left; reflexivity|constructor].
Qed.

Print Assumptions C141_ends.
Print Assumptions C141_trivial.
Print Assumptions C141_literal.
Print Assumptions C141_newer.
Print Assumptions C141_wrappers.
Print Assumptions C141_dynamic_bitset.
Print Assumptions C141_fixed_refuted.
Print Assumptions C141_fixed_inside_refuted.
Print Assumptions C141_fixed_reason.
Print Assumptions C141_number_equals.
Print Assumptions C141_number_equals_refuted.
Print Assumptions C141_bitset_text.
Print Assumptions C141_never_refuted.
Print Assumptions C141_index_const.
Print Assumptions C141_movable.
Print Assumptions C141_result_conversion.
Print Assumptions C141_endianness.
Print Assumptions C141_multiply_add.
Print Assumptions C141_placement_destroy.
Print Assumptions C141_flags.
Print Assumptions C141_flags_calls.
