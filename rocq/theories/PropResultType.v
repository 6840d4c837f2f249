(** Property C138: the constructors of Result initialise the side meant. *)
From Verif Require Import ResultTypeModel.
Open Scope nat_scope.

Lemma cat_eqb_eq a b : cat_eqb a b = true <-> a = b.
Proof. destruct a, b; cbn; split; congruence. Qed.
Lemma ty_eqb_eq a : forall b, ty_eqb a b = true <-> a = b.
Proof.
  induction a as [n| |V IHV E IHE|T IH c|T IH c]; intros [m| |V' E'|T' c'|T' c']; cbn [ty_eqb]; try (split; congruence).
  - rewrite Nat.eqb_eq. split; congruence.
  - rewrite andb_true_iff, IHV, IHE. split; [intros (-> & ->); reflexivity|intros H; injection H; auto].
  - rewrite andb_true_iff, IH, cat_eqb_eq. split; [intros (-> & ->); reflexivity|intros H; injection H; auto].
  - rewrite andb_true_iff, IH, cat_eqb_eq. split; [intros (-> & ->); reflexivity|intros H; injection H; auto].
Qed.
Lemma ty_eqb_refl a : ty_eqb a a = true.
Proof. now apply ty_eqb_eq. Qed.
Lemma ty_eqb_neq a b : a <> b -> ty_eqb a b = false.
Proof. intros N. destruct (ty_eqb a b) eqn:E; [|reflexivity]. apply ty_eqb_eq in E. contradiction. Qed.
Fixpoint depth (t : ty) : nat := match t with TClass _ | TVoid => 0 | TResult V E => S (depth V + depth E) | TOk T _ | TErr T _ => S (depth T) end.
Lemma not_own V E : TResult V E <> V /\ TResult V E <> E.
Proof. split; intros H; apply (f_equal depth) in H; cbn in H; lia. Qed.

(** The types of values and errors: other classes and Result; [void] only as the value of a Result. *)
Fixpoint plain (t : ty) : Prop := match t with TClass _ => True | TResult V E => (V = TVoid \/ plain V) /\ plain E | _ => False end.

Section C138.
Variables (bconv : nat -> nat -> bool) (bdefault : nat -> bool).
Context {X : Type}.
Variable bmap : nat -> nat -> X -> X.
Hypothesis bconv_refl : forall n, bconv n n = true.
Hypothesis bmap_id : forall n x, bmap n n x = x.
Notation converts := (converts bconv).
Notation convertible := (convertible bconv).
Notation compiles := (compiles bconv bdefault).
Notation build := (build bconv bdefault bmap).
Notation default := (default bdefault).
(** A value of the type, as far as it matters here. *)
Fixpoint has_type (t : ty) (v : val X) : Prop :=
  match t, v with
  | TClass _, VClass _ => True
  | TVoid, VUnit => True
  | TResult V _, VOk w => has_type V w
  | TResult _ E, VErr w => has_type E w
  | _, _ => False
  end.

Lemma convertible_result A c V E : A <> TVoid -> convertible A c (TResult V E) = match select V E A c (converts V E A) with Some _ => true | None => false end.
Proof. destruct A; intros N; try reflexivity. congruence. Qed.
Lemma select_same V E c k : select V E (TResult V E) c k = Some (if movable c then Move else Copy).
Proof. unfold select, viable. rewrite (ty_eqb_neq (TResult V E) V) by apply not_own. rewrite ty_eqb_refl, andb_false_r. cbn [andb app]. destruct c, k, (is_void V); reflexivity. Qed.
Lemma same T c : plain T -> convertible T c T = true /\ compiles T c T = true /\ forall v, has_type T v -> build T c T v = Some (v, []).
Proof.
  destruct T as [n| |V E|T cT|T cT]; cbn [plain]; intros P; try contradiction.
  - cbn. rewrite bconv_refl. repeat split. intros [|x| | |]; cbn; try contradiction. now rewrite bmap_id.
  - rewrite convertible_result by discriminate. cbn [ResultTypeModel.compiles ResultTypeModel.build]. rewrite select_same. destruct (movable c); repeat split; reflexivity.
Qed.
Lemma plain_not_void T : plain T -> is_void T = false.
Proof. destruct T; cbn; (reflexivity || contradiction). Qed.
Lemma plain_not_ok T U c : plain T -> ty_eqb (TOk U c) T = false /\ ty_eqb (TErr U c) T = false.
Proof. destruct T; cbn; (auto || contradiction). Qed.

(** Ok(x) and Err(x) select their constructor whatever the types. *)
Lemma select_ok V E T c c' k : plain V -> select V E (TOk T c) c' k = Some FromValue.
Proof. intros P. unfold select, viable. rewrite (proj1 (plain_not_ok V T c P)), (plain_not_void V P). cbn. reflexivity. Qed.
Lemma select_err V E T c c' k : V = TVoid \/ plain V -> select V E (TErr T c) c' k = Some FromError.
Proof. intros [-> | P]; unfold select, viable; [reflexivity|]. rewrite (proj2 (plain_not_ok V T c P)), andb_false_r. reflexivity. Qed.

(** An argument of the value type. *)
Lemma select_value V E c : plain V -> V <> E -> select V E V c (converts V E V) = Some (if converts V E V then match c with ConstLvalue => ConvertCopy | Rvalue => ConvertMove | _ => FromAny end else FromAny).
Proof.
  intros P N. unfold select, viable. rewrite (plain_not_void V P), ty_eqb_refl, (ty_eqb_neq V E N). cbn [negb andb app].
  destruct V as [n| |V2 E2|T cT|T cT]; cbn [plain] in P; try contradiction; [reflexivity|]. rewrite (ty_eqb_neq (TResult V2 E2) (TResult (TResult V2 E2) E)).
  - destruct (converts (TResult V2 E2) E (TResult V2 E2)), c; reflexivity.
  - intros H. apply (f_equal depth) in H. cbn in H. lia.
Qed.
Lemma value_convertible V E : plain V -> V <> E -> convertible V Rvalue (TResult V E) = true.
Proof. intros P N. rewrite convertible_result by (intros ->; contradiction). rewrite (select_value V E Rvalue P N). reflexivity. Qed.
(** An argument of another Result type. *)
Lemma select_other V E V2 E2 c k : TResult V2 E2 <> V -> TResult V2 E2 <> TResult V E -> select V E (TResult V2 E2) c k = if k then Some (if movable c then ConvertMove else ConvertCopy) else None.
Proof. intros N1 N2. unfold select, viable. rewrite (ty_eqb_neq _ V N1), (ty_eqb_neq _ _ N2), andb_false_r. cbn [andb app]. destruct k, c, (is_void V); reflexivity. Qed.
End C138.

(** C138: copying and moving never go through the templates: the same value, nothing default constructed. *)
Theorem C138_copy : forall (X : Type) bconv bdefault (bmap : nat -> nat -> X -> X) V E c v, V = TVoid \/ plain V -> plain E ->
  compiles bconv bdefault (TResult V E) c (TResult V E) = true /\ build bconv bdefault bmap (TResult V E) c (TResult V E) v = Some (v, []).
Proof. intros X bconv bdefault bmap V E c v PV PE. cbn [compiles build]. rewrite select_same. destruct (movable c); split; reflexivity. Qed.
Print Assumptions C138_copy.

(** C138: Ok(x) makes a value and Err(x) an error that holds x, for all types (also when value and error have the same type, also when they are Results) and value categories. *)
Theorem C138_ok_err : forall (X : Type) bconv bdefault (bmap : nat -> nat -> X -> X) V E c c' (x : val X), (forall n, bconv n n = true) -> (forall n y, bmap n n y = y) -> plain V -> plain E ->
  (has_type V x -> compiles bconv bdefault (TOk V c) c' (TResult V E) = true /\ build bconv bdefault bmap (TOk V c) c' (TResult V E) (VWrapped x) = Some (VOk x, [])) /\
  (has_type E x -> compiles bconv bdefault (TErr E c) c' (TResult V E) = true /\ build bconv bdefault bmap (TErr E c) c' (TResult V E) (VWrapped x) = Some (VErr x, [])).
Proof.
  intros X bconv bdefault bmap V E c c' x R I PV PE. destruct (same bconv bdefault bmap R I V c PV) as (_ & CV & BV). destruct (same bconv bdefault bmap R I E c PE) as (_ & CE & BE). split; intros H; cbn [compiles build].
  - rewrite (select_ok V E V c c' _ PV), (plain_not_void V PV), CV, (BV x H). split; reflexivity.
  - rewrite (select_err V E E c c' _ (or_intror PV)), (plain_not_void V PV), CE, (BE x H). split; reflexivity.
Qed.
Print Assumptions C138_ok_err.
Theorem C138_void : forall (X : Type) bconv bdefault (bmap : nat -> nat -> X -> X) E c c' (x : val X), (forall n, bconv n n = true) -> (forall n y, bmap n n y = y) -> plain E -> has_type E x ->
  build bconv bdefault bmap (TOk TVoid c) c' (TResult TVoid E) (VWrapped VUnit) = Some (VOk VUnit, []) /\ build bconv bdefault bmap (TErr E c) c' (TResult TVoid E) (VWrapped x) = Some (VErr x, []).
Proof.
  intros X bconv bdefault bmap E c c' x R I PE H. destruct (same bconv bdefault bmap R I E (moved c) PE) as (_ & _ & BE). cbn [build]. split; [reflexivity|]. rewrite (select_err TVoid E E c c' _ (or_introl eq_refl)). cbn [is_void]. now rewrite (BE x H).
Qed.
Print Assumptions C138_void.

(** C138: a Result built from an object of its value type (without Ok) is a value that holds it, unless the value type is a Result that also converts and the argument is an rvalue or a
    const lvalue; it does not compile if value and error have the same type (which is not a Result). *)
Theorem C138_direct_partial : forall (X : Type) bconv bdefault (bmap : nat -> nat -> X -> X) V E c (x : val X), plain V -> V <> E -> converts bconv V E V = false \/ c = Lvalue \/ c = ConstRvalue ->
  compiles bconv bdefault V c (TResult V E) = true /\ build bconv bdefault bmap V c (TResult V E) x = Some (VOk x, []).
Proof.
  intros X bconv bdefault bmap V E c x P N H. assert (S : select V E V c (converts bconv V E V) = Some FromAny). { rewrite (select_value bconv V E c P N). destruct H as [-> |[-> | ->]]; [reflexivity|now destruct (converts bconv V E V)..]. }
  destruct V as [n| |V2 E2|T cT|T cT]; cbn [plain] in P; try contradiction; cbn [compiles build]; rewrite S; split; reflexivity.
Qed.
Print Assumptions C138_direct_partial.
Theorem C138_direct_class : forall (X : Type) bconv bdefault (bmap : nat -> nat -> X -> X) n E c (x : val X), (TClass n <> E -> build bconv bdefault bmap (TClass n) c (TResult (TClass n) E) x = Some (VOk x, [])) /\
  (TClass n = E -> convertible bconv (TClass n) c (TResult (TClass n) E) = false).
Proof.
  intros X bconv bdefault bmap n E c x. split; intros H; [apply (C138_direct_partial X bconv bdefault bmap (TClass n) E c x Logic.I H); now left|]. subst E. rewrite convertible_result by discriminate. unfold select, viable. rewrite ty_eqb_refl, andb_false_r. reflexivity.
Qed.
Print Assumptions C138_direct_class.

(** C138: in a Result of a Result with the same error type, an inner error given as an rvalue or const lvalue becomes the outer error (after default constructing an inner Result); given as an
    lvalue it is kept as the value. If the inner value type has no default constructor the first does not compile. *)
Theorem C138_nested_refuted : forall (X : Type) bconv bdefault (bmap : nat -> nat -> X -> X) V E (e : val X), (forall n, bconv n n = true) -> (forall n y, bmap n n y = y) -> plain V -> plain E -> V <> E -> has_type E e ->
  let inner := TResult V E in let outer := TResult inner E in
  build bconv bdefault bmap inner Lvalue outer (VErr e) = Some (VOk (VErr e), []) /\
  (default bdefault V = true -> build bconv bdefault bmap inner Rvalue outer (VErr e) = Some (VErr e, [inner]) /\ build bconv bdefault bmap inner ConstLvalue outer (VErr e) = Some (VErr e, [inner])) /\
  (default bdefault V = false -> convertible bconv inner Rvalue outer = true /\ compiles bconv bdefault inner Rvalue outer = false /\ compiles bconv bdefault inner ConstLvalue outer = false).
Proof.
  intros X bconv bdefault bmap V E e R I PV PE N H inner outer. assert (PI : plain inner) by (split; [now right|exact PE]). assert (NI : inner <> E). { intros Q. exact (proj2 (not_own V E) Q). }
  assert (C : converts bconv inner E inner = true). { change (convertible bconv V Rvalue (TResult V E) && convertible bconv E Rvalue E = true). rewrite (value_convertible bconv V E PV N). apply (same bconv bdefault bmap R I E Rvalue PE). }
  assert (D : default bdefault inner = default bdefault V) by (cbn; now rewrite (plain_not_void V PV)).
  pose proof (select_value bconv inner E Rvalue PI NI) as SR. pose proof (select_value bconv inner E ConstLvalue PI NI) as SC. rewrite C in SR, SC.
  pose proof (proj2 (proj2 (same bconv bdefault bmap R I E Rvalue PE)) e H) as BR. pose proof (proj2 (proj2 (same bconv bdefault bmap R I E ConstLvalue PE)) e H) as BC.
  split; [apply (C138_direct_partial X bconv bdefault bmap inner E Lvalue (VErr e) PI NI); auto|]. unfold outer, inner in *. clear outer inner. split; intros DV; rewrite DV in D.
  - split; cbn [build]; [rewrite C, SR|rewrite C, SC]; cbn [is_void passed]; rewrite D; [rewrite BR|rewrite BC]; reflexivity.
  - split; [rewrite (convertible_result bconv) by discriminate; now rewrite C, SR|]. split; cbn [compiles]; [rewrite C, SR|rewrite C, SC]; cbn [is_void passed]; now rewrite D.
Qed.
Print Assumptions C138_nested_refuted.

(** C138: a Result converted to another type of Result keeps its side; only the value or error is converted. *)
Theorem C138_conversion : forall (X : Type) bconv bdefault (bmap : nat -> nat -> X -> X) V E V2 E2 c, TResult V2 E2 <> V -> TResult V2 E2 <> TResult V E -> compiles bconv bdefault (TResult V2 E2) c (TResult V E) = true ->
  let c' := if movable c then Rvalue else ConstLvalue in
  (forall w, V <> TVoid -> build bconv bdefault bmap (TResult V2 E2) c (TResult V E) (VOk w) = option_map (fun '(w, d) => (VOk w, V :: d)) (build bconv bdefault bmap V2 c' V w)) /\
  (forall w, build bconv bdefault bmap (TResult V2 E2) c (TResult V E) (VErr w) = option_map (fun '(w, d) => (VErr w, if is_void V then d else V :: d)) (build bconv bdefault bmap E2 c' E w)) /\
  (forall w, V = TVoid -> build bconv bdefault bmap (TResult V2 E2) c (TResult V E) (VOk w) = Some (VOk VUnit, [])).
Proof.
  intros X bconv bdefault bmap V E V2 E2 c N1 N2 C c'. cbn [compiles build] in *. rewrite (select_other V E V2 E2 c _ N1 N2) in *. destruct (converts bconv V E (TResult V2 E2)); [|discriminate].
  assert (P : passed (if movable c then ConvertMove else ConvertCopy) = c') by (unfold c'; now destruct (movable c)).
  split; [|split].
  - intros w NV. assert (VV : is_void V = false) by (destruct V; (reflexivity || contradiction)). rewrite VV in *. destruct (movable c); cbn [orb passed] in *; apply andb_prop in C; destruct C as (C & _); apply andb_prop in C; destruct C as (-> & _); reflexivity.
  - intros w. destruct (is_void V) eqn:VV; destruct (movable c); cbn [orb passed] in *; try reflexivity; apply andb_prop in C; destruct C as (C & _); apply andb_prop in C; destruct C as (-> & _); reflexivity.
  - intros w ->. destruct (movable c); reflexivity.
Qed.
Print Assumptions C138_conversion.

(** C138: std::is_convertible accepts conversions that do not compile: from Ok of anything, and between Results whose value type has no default constructor. *)
Theorem C138_convertible_refuted : forall bconv bdefault n m e c c', (forall k, bconv k k = true) ->
  convertible bconv (TOk (TClass m) c) c' (TResult (TClass n) (TClass e)) = true /\ (bconv m n = false -> compiles bconv bdefault (TOk (TClass m) c) c' (TResult (TClass n) (TClass e)) = false) /\
  (n <> m -> bconv m n = true -> bdefault n = false -> convertible bconv (TResult (TClass m) (TClass e)) c (TResult (TClass n) (TClass e)) = true /\ compiles bconv bdefault (TResult (TClass m) (TClass e)) c (TResult (TClass n) (TClass e)) = false).
Proof.
  intros bconv bdefault n m e c c' R. split; [|split].
  - rewrite convertible_result by discriminate. now rewrite select_ok by exact Logic.I.
  - intros B. cbn [compiles]. rewrite select_ok by exact Logic.I. cbn. now rewrite B.
  - intros N B D. assert (N2 : TResult (TClass m) (TClass e) <> TResult (TClass n) (TClass e)) by congruence. assert (C : converts bconv (TClass n) (TClass e) (TResult (TClass m) (TClass e)) = true) by (cbn; now rewrite B, R).
    split; [rewrite convertible_result by discriminate|cbn [compiles]]; rewrite (select_other (TClass n) (TClass e) _ _ c _ ltac:(discriminate) N2), C; [reflexivity|]. destruct (movable c); cbn; now rewrite D.
Qed.
Print Assumptions C138_convertible_refuted.

(** C138: Result(ErrorTag, args...) is an error, for all numbers of arguments the error type accepts; but Result<void, E>(ErrorTag) without arguments is a value, and two or more arguments do not compile. *)
Theorem C138_error_tag_partial : forall constructible n, constructible n = true -> error_tag false constructible n = Some Error /\ (n = 1 -> error_tag true constructible n = Some Error).
Proof. intros k n H. split; [cbn; now rewrite H|]. intros ->. cbn. now rewrite H. Qed.
Print Assumptions C138_error_tag_partial.
Theorem C138_error_tag_refuted : forall constructible, error_tag true constructible 0 = Some Value /\ forall n, 2 <= n -> error_tag true constructible n = None.
Proof. intros k. split; [reflexivity|]. intros [|[|n]] H; (lia || reflexivity). Qed.
Print Assumptions C138_error_tag_refuted.

(** C138: a Result whose value type is what Ok returns takes the wrapped value out instead of storing the wrapper: it compiles for no wrapped class; and it is never converted. *)
Theorem C138_wrapper_refuted : forall bconv bdefault T cT E E2 c c2, TOk T cT <> E -> E2 <> E ->
  select (TOk T cT) E (TOk T cT) c false = Some FromValue /\ convertible bconv (TOk T cT) c (TResult (TOk T cT) E) = true /\ compiles bconv bdefault (TOk T cT) c (TResult (TOk T cT) E) = false /\
  compiles bconv bdefault (TResult (TOk T cT) E2) c2 (TResult (TOk T cT) E) = false.
Proof.
  intros bconv bdefault T cT E E2 c c2 N N2. assert (S : select (TOk T cT) E (TOk T cT) c false = Some FromValue).
  { unfold select, viable. rewrite ty_eqb_refl, (ty_eqb_neq _ _ N). destruct c; reflexivity. }
  assert (W : ty_eqb T (TOk T cT) = false). { apply ty_eqb_neq. clear. revert cT. induction T; intros c0 H; try discriminate. injection H as H1 ->. now apply (IHT c0). }
  repeat split; [exact S|rewrite convertible_result by discriminate; cbn [converts]; now rewrite S|cbn [compiles converts]; rewrite S; cbn [is_void orb]; destruct T; exact W|].
  cbn [compiles]. rewrite select_other by congruence. destruct (converts bconv (TOk T cT) E (TResult (TOk T cT) E2)); [|reflexivity]. destruct (movable c2); cbn [default is_void orb andb]; reflexivity.
Qed.
Print Assumptions C138_wrapper_refuted.
(** C138: Result<void, E> moves out of what Err refers to, so that the error is built as from a temporary; the primary template keeps the category. *)
Theorem C138_void_error_moves : forall (X : Type) bconv bdefault (bmap : nat -> nat -> X -> X) T E V c c' v, V = TVoid \/ plain V ->
  build bconv bdefault bmap (TErr T c) c' (TResult V E) (VWrapped v) =
    option_map (fun '(w, d) => (VErr w, d)) (build bconv bdefault bmap T (if is_void V then match c with Lvalue | Rvalue => Rvalue | ConstLvalue | ConstRvalue => ConstRvalue end else c) E v).
Proof. intros X bconv bdefault bmap T E V c c' v P. cbn [build]. rewrite (select_err V E T c c' _ P). destruct (is_void V); [|reflexivity]. destruct c; reflexivity. Qed.
Print Assumptions C138_void_error_moves.

(** Non-vacuity: class 0 converts to class 1; class 2 has no default constructor. *)
Definition conv_example (m n : nat) : bool := (m =? n) || ((m =? 0) && (n =? 1)).
Definition default_example (n : nat) : bool := negb (n =? 2).
Definition map_example (m n x : nat) : nat := if m =? n then x else x + 100.
Notation mk := (build conv_example default_example map_example).
Example C138_case :
  mk (TClass 0) Rvalue (TResult (TClass 0) (TClass 3)) (VClass 7) = Some (VOk (VClass 7), []) /\
  mk (TOk (TClass 0) Rvalue) Rvalue (TResult (TClass 1) (TClass 1)) (VWrapped (VClass 7)) = Some (VOk (VClass 107), []) /\
  mk (TErr (TClass 0) Lvalue) Rvalue (TResult (TClass 1) (TClass 1)) (VWrapped (VClass 7)) = Some (VErr (VClass 107), []) /\
  mk (TResult (TClass 0) (TClass 0)) Lvalue (TResult (TClass 1) (TClass 1)) (VErr (VClass 7)) = Some (VErr (VClass 107), [TClass 1]) /\
  mk (TResult (TClass 0) (TClass 3)) Rvalue (TResult (TResult (TClass 0) (TClass 3)) (TClass 3)) (VErr (VClass 7)) = Some (VErr (VClass 7), [TResult (TClass 0) (TClass 3)]) /\
  mk (TResult (TClass 0) (TClass 3)) Lvalue (TResult (TResult (TClass 0) (TClass 3)) (TClass 3)) (VErr (VClass 7)) = Some (VOk (VErr (VClass 7)), []) /\
  mk (TResult TVoid (TClass 3)) Rvalue (TResult (TResult TVoid (TClass 3)) (TClass 3)) (VErr (VClass 7)) = Some (VOk (VErr (VClass 7)), []) /\
  compiles conv_example default_example (TResult (TClass 2) (TClass 3)) Rvalue (TResult (TResult (TClass 2) (TClass 3)) (TClass 3)) = false.
Proof. repeat split. Qed.
