(** Properties C100 to C103: FunctionTraits, IsFunctor, Overload and TypeTraits. *)
From Verif Require Import Base CInt TypeListModel TraitsModel.
Open Scope nat_scope.

(** Types C++ can form: no cv-qualified references or functions, no reference to a reference, no pointer or reference to a qualified function type. *)
Definition qualified (f : fn) : bool := match f with Fn _ _ _ c v r _ => c || v || negb (refq_eqb r RNone) end.
Definition is_reference (t : ty) : bool := match t with Ty _ _ (BLRef _) | Ty _ _ (BRRef _) => true | _ => false end.
Definition unqualified (t : ty) : bool := match t with Ty c v _ => negb c && negb v end.
Definition object_formed (t : ty) : bool :=
  match t with
  | Ty c v (BFunction _) => negb c && negb v
  | Ty c v (BPointer (Ty c' v' (BFunction f))) => negb c' && negb v' && negb (qualified f)
  | _ => true
  end.
Definition referable (t : ty) : bool := negb (is_reference t) && object_formed t && match t with Ty _ _ (BFunction f) => negb (qualified f) | _ => true end.
Definition formed (t : ty) : bool :=
  match t with Ty c v (BLRef u) | Ty c v (BRRef u) => negb c && negb v && referable u | _ => object_formed t end.

Section Classes.
  Context (operator : nat -> call_operator).
  Notation FunctionTraits := (FunctionTraits operator).

  (** ** C100 *)
  (** The function that is called through a value of a type. *)
  Definition callee (t : ty) : option fn :=
    match t with
    | Ty _ _ (BFunction f) | Ty _ _ (BPointer (Ty _ _ (BFunction f))) | Ty _ _ (BMember _ f) => Some f
    | Ty _ _ (BClass n) => match operator n with OneOperator f => Some f | _ => None end
    | _ => None
    end.
  Definition is_volatile (t : ty) : bool := match t with Ty _ v _ => v end.
  Definition is_class (t : ty) : bool := match t with Ty _ _ (BClass _) => true | _ => false end.
  Definition is_noexcept (f : fn) : bool := match f with Fn _ _ _ _ _ _ ne => ne end.
  Definition is_variadic (f : fn) : bool := match f with Fn _ _ va _ _ _ _ => va end.
  Definition returns (f : fn) : ty := match f with Fn r _ _ _ _ _ _ => r end.
  Definition parameters (f : fn) : list ty := match f with Fn _ a _ _ _ _ _ => a end.

  (** What FunctionTraits gives, for every type: the return and parameter types of the function called, except for variadic functions, volatile
      pointers, and function types (not pointers) that are noexcept or qualified. *)
  Theorem C100_exactly : forall t, formed t = true ->
    FunctionTraits t =
      match callee (remove_reference t) with
      | Some f =>
        if is_variadic f || (is_volatile (remove_reference t) && negb (is_class (remove_reference t))) || (is_function (remove_reference t) && (is_noexcept f || qualified f))
        then None else Some (returns f, parameters f)
      | None => None
      end.
  Proof.
    assert (K : forall n c v b, is_reference (Ty c v b) = false -> formed (Ty c v b) = true ->
      instantiate operator (S (S (S (S n)))) (Ty c v b) =
        match callee (Ty c v b) with
        | Some f => if is_variadic f || (v && negb (is_class (Ty c v b))) || (is_function (Ty c v b) && (is_noexcept f || qualified f)) then None else Some (returns f, parameters f)
        | None => None
        end).
    { assert (K' : forall n v b, is_reference (Ty false v b) = false -> formed (Ty false v b) = true ->
        instantiate operator (S (S (S n))) (Ty false v b) =
          match callee (Ty false v b) with
          | Some f => if is_variadic f || (v && negb (is_class (Ty false v b))) || (is_function (Ty false v b) && (is_noexcept f || qualified f)) then None else Some (returns f, parameters f)
          | None => None
          end).
      { intros n v b R W. destruct v.
        - cbn [instantiate specialisation]. unfold primary. destruct b as [m|m|[? ? u]|u|u|f|m f|m u|u]; cbn in R, W |- *; try discriminate; try reflexivity.
          + destruct (operator m) as [|f|]; try reflexivity. destruct f as [ret args va c v r ne]. destruct va; cbn; reflexivity.
          + destruct u; cbn in *; try reflexivity. now rewrite orb_true_r.
          + now rewrite orb_true_r.
        - destruct b as [m|m|[c' v' u]|u|u|f|m f|m u|u]; cbn in R, W |- *; try discriminate; try reflexivity.
          + destruct (operator m) as [|f|]; try reflexivity. destruct f as [ret args va c v r ne]. destruct va; cbn; reflexivity.
          + destruct u as [| | | | |f| | |]; destruct c', v'; cbn in W |- *; try discriminate; try reflexivity.
            destruct f as [ret args va c v r ne]. destruct c, v, r, va; cbn in W |- *; try discriminate; try reflexivity.
          + destruct f as [ret args va c v r ne]. destruct va, c, v, r, ne; cbn; reflexivity.
          + destruct f as [ret args va c v r ne]. destruct va; cbn; reflexivity. }
      intros n c v b R W. destruct c.
      - change (instantiate operator (S (S (S (S n)))) (Ty true v b)) with (instantiate operator (S (S (S n))) (Ty false v b)).
        rewrite K'; [destruct b; reflexivity | now destruct b |]. destruct b; cbn in W |- *; try discriminate; trivial.
      - rewrite K' by assumption. destruct b; reflexivity. }
    intros t W. unfold TraitsModel.FunctionTraits. destruct (is_reference t) eqn:R.
    - assert (X : exists u, referable u = true /\ remove_reference t = u /\ specialisation operator t = Inherits (match u with Ty _ v b => Ty false v b end)).
      { destruct t as [c v b]. destruct b; try discriminate R; cbn in W; apply andb_prop in W as (W & H); apply andb_prop in W as (W1 & W2); destruct c, v; try discriminate;
          exists t; (split; [exact H|]); (split; [reflexivity|]); destruct t as [[|] v b]; reflexivity. }
      destruct X as (u & H & -> & E). cbn [instantiate]. rewrite E. fold instantiate. destruct u as [c v b].
      unfold referable in H. apply andb_prop in H as (H & H2). apply andb_prop in H as (H1 & H3). apply negb_true_iff in H1.
      assert (F : formed (Ty false v b) = true).
      { destruct b; cbn in H1, H3 |- *; try discriminate; trivial. destruct c, v; trivial. }
      change (match specialisation operator (Ty false v b) with Inherits t => _ | Defines ret args => _ | IllFormed => _ end) with (instantiate operator 5 (Ty false v b)).
      rewrite K; [|now destruct b | exact F]. destruct b; reflexivity.
    - destruct t as [c v b]. replace (remove_reference (Ty c v b)) with (Ty c v b) by (destruct b; trivial; discriminate R). now apply K.
  Qed.

  (** In particular: function pointers, member functions with any of the qualifiers, and classes with one call operator; *)
  Theorem C100_callables : forall ret args n c v r ne,
    FunctionTraits (plain_ty (BFunction (plain_fn ret args))) = Some (ret, args) /\
    FunctionTraits (plain_ty (BPointer (plain_ty (BFunction (Fn ret args false false false RNone ne))))) = Some (ret, args) /\
    FunctionTraits (plain_ty (BMember n (Fn ret args false c v r ne))) = Some (ret, args) /\
    (operator n = OneOperator (Fn ret args false c v r ne) -> FunctionTraits (plain_ty (BClass n)) = Some (ret, args)).
  Proof. intros ret args n c v r ne. repeat split. intros E. rewrite C100_exactly by reflexivity. cbn. now rewrite E. Qed.
  (** const and references make no difference; *)
  Theorem C100_wrappers : forall v b, is_reference (Ty false v b) = false -> is_function (Ty false v b) = false -> formed (Ty false v b) = true ->
    let T := Ty false v b in
    FunctionTraits (Ty true v b) = FunctionTraits T /\
    FunctionTraits (plain_ty (BLRef T)) = FunctionTraits T /\ FunctionTraits (plain_ty (BLRef (Ty true v b))) = FunctionTraits T /\
    FunctionTraits (plain_ty (BRRef T)) = FunctionTraits T /\ FunctionTraits (plain_ty (BRRef (Ty true v b))) = FunctionTraits T.
  Proof.
    intros v b R F W T. subst T. repeat split; rewrite !C100_exactly; destruct b; try discriminate; unfold formed, referable in *; cbn in *; rewrite ?W; try reflexivity.
  Qed.
  (** ArgCount and ArgType. *)
  Theorem C100_arguments : forall t ret args, FunctionTraits t = Some (ret, args) ->
    ReturnType operator t = Some ret /\ ArgCount operator t = Some (length args) /\
    (forall i, i < length args -> ArgType operator t i = nth_error args i) /\ (forall i, length args <= i -> ArgType operator t i = None).
  Proof.
    intros t ret args E. unfold ReturnType, ArgCount, ArgType. rewrite E. repeat split.
    - intros i L. replace (i <? length args) with true by (symmetry; now apply Nat.ltb_lt). clear E. revert i L.
      induction args as [|a args IH]; intros [|i] L; cbn [length] in *; cbn [ListAt nth_error]; try lia; trivial.
      replace (S i <=? length args) with true by (symmetry; apply Nat.leb_le; lia). apply IH. lia.
    - intros i L. replace (i <? length args) with false by (symmetry; now apply Nat.ltb_ge). reflexivity.
  Qed.
  (** The exceptions, for every signature: noexcept function types (while pointers to them work), references to them, variadic functions and volatile pointers. *)
  Theorem C100_noexcept_refuted : forall ret args,
    let f := Fn ret args false false false RNone true in let ellipsis := Fn ret args true false false RNone false in
    FunctionTraits (plain_ty (BFunction f)) = None /\ FunctionTraits (plain_ty (BLRef (plain_ty (BFunction f)))) = None /\
    FunctionTraits (plain_ty (BPointer (plain_ty (BFunction f)))) = Some (ret, args) /\
    FunctionTraits (plain_ty (BFunction ellipsis)) = None /\ FunctionTraits (plain_ty (BPointer (plain_ty (BFunction ellipsis)))) = None /\
    FunctionTraits (Ty false true (BPointer (plain_ty (BFunction (plain_fn ret args))))) = None.
  Proof. intros ret args. repeat split. Qed.

  (** ** C101 *)
  (** IsFunctor is never ambiguous: true for function types, member function pointers and classes with one call operator, whatever their cv-qualifiers; *)
  Theorem C101_exactly : forall c v b,
    IsFunctor operator (Ty c v b) =
      Some (match b with BFunction _ | BMember _ _ => true | BClass n => match operator n with OneOperator _ => true | _ => false end | _ => false end).
  Proof. intros c v b. unfold IsFunctor, count_true. destruct b; try reflexivity. cbn. now destruct (operator n). Qed.
  (** for classes, exactly when FunctionTraits can be used, variadic call operators aside; *)
  Theorem C101_classes : forall c v n, (forall f, operator n = OneOperator f -> is_variadic f = false) ->
    IsFunctor operator (Ty c v (BClass n)) = Some (match FunctionTraits (Ty c v (BClass n)) with Some _ => true | None => false end).
  Proof.
    intros c v n H. rewrite C101_exactly, C100_exactly by reflexivity. cbn. destruct (operator n) as [|f|] eqn:E; trivial.
    rewrite (H f eq_refl). cbn. now rewrite andb_false_r.
  Qed.
  (** but not for other types: no function pointer and no reference is a functor although FunctionTraits accepts them, and functions that FunctionTraits rejects are. *)
  Theorem C101_functor_refuted : forall ret args n,
    (FunctionTraits (plain_ty (BPointer (plain_ty (BFunction (plain_fn ret args))))) = Some (ret, args) /\
     IsFunctor operator (plain_ty (BPointer (plain_ty (BFunction (plain_fn ret args))))) = Some false) /\
    (forall t, IsFunctor operator (plain_ty (BLRef t)) = Some false /\ IsFunctor operator (plain_ty (BRRef t)) = Some false) /\
    (FunctionTraits (plain_ty (BFunction (Fn ret args true false false RNone false))) = None /\ IsFunctor operator (plain_ty (BFunction (Fn ret args true false false RNone false))) = Some true) /\
    (operator n = Unnameable -> IsFunctor operator (plain_ty (BClass n)) = Some false).
  Proof. intros ret args n. repeat split. intros E. rewrite C101_exactly. now rewrite E. Qed.
End Classes.
Print Assumptions C100_exactly.
Print Assumptions C100_callables.
Print Assumptions C100_wrappers.
Print Assumptions C100_arguments.
Print Assumptions C100_noexcept_refuted.
Print Assumptions C101_exactly.
Print Assumptions C101_classes.
Print Assumptions C101_functor_refuted.

Definition int_ty := plain_ty (BScalar 1).
Definition char_ty := plain_ty (BScalar 2).
Definition sample_operator (n : nat) : call_operator := match n with 0 => OneOperator (Fn int_ty [char_ty; int_ty] false true false RNone true) | 1 => Unnameable | _ => NoOperator end.
Example C100_nonvacuous :
  FunctionTraits sample_operator (plain_ty (BLRef (Ty true false (BClass 0)))) = Some (int_ty, [char_ty; int_ty]) /\
  ArgType sample_operator (plain_ty (BClass 0)) 1 = Some int_ty /\ ArgType sample_operator (plain_ty (BClass 0)) 2 = None /\
  FunctionTraits sample_operator (plain_ty (BClass 1)) = None /\ IsFunctor sample_operator (plain_ty (BClass 0)) = Some true.
Proof. now vm_compute. Qed.

(** ** C102 *)
Section Overload.
  Context (same : ty -> ty -> bool) (same_spec : forall a b, same a b = true <-> a = b).
  Lemma same_list_spec a b : same_list same a b = true <-> a = b.
  Proof.
    revert b; induction a as [|x a IH]; intros [|y b]; cbn; try (split; congruence). rewrite andb_true_iff, same_spec, IH. split; [intros (-> & ->); reflexivity | intros E; injection E; auto].
  Qed.
  (** The functions an overload set offers for the given parameter types; free functions have no qualifiers. *)
  Definition params_of (c : candidate) : list ty := match signature c with Fn _ a _ _ _ _ _ => a end.
  Definition volatile_of (c : candidate) : bool := match signature c with Fn _ _ _ _ v _ _ => v end.
  Definition variadic_of (c : candidate) : bool := match signature c with Fn _ _ va _ _ _ _ => va end.
  Definition const_of (c : candidate) : bool := match signature c with Fn _ _ _ k _ _ _ => k end.
  Definition ref_of (c : candidate) : refq := match signature c with Fn _ _ _ _ _ r _ => r end.
  Definition noexcept_of (c : candidate) : bool := match signature c with Fn _ _ _ _ _ _ ne => ne end.
  Definition eligible (Args : list ty) (c : candidate) : Prop := params_of c = Args /\ variadic_of c = false /\ volatile_of c = false.
  Definition candidate_ok (c : candidate) : Prop := owner c = None -> qualified (signature c) = false.
  (** Overloads differ in their parameters or qualifiers (and the noexcept of a function is not part of that). *)
  Definition distinct (l : list candidate) : Prop :=
    forall i j a b, nth_error l i = Some a -> nth_error l j = Some b ->
      is_member a = is_member b -> params_of a = params_of b -> variadic_of a = variadic_of b -> const_of a = const_of b -> volatile_of a = volatile_of b -> ref_of a = ref_of b -> i = j.

  Lemma deduces_spec Args p f : deduces same Args p f = true <->
    is_member f = p_member p /\ params_of f = Args /\ variadic_of f = false /\ const_of f = p_const p /\ volatile_of f = false /\ ref_of f = p_ref p /\ (p_noexcept p = true -> noexcept_of f = true).
  Proof.
    unfold deduces, params_of, variadic_of, const_of, volatile_of, ref_of, noexcept_of. destruct f as [o [ret args va c v r ne]]. cbn [signature].
    rewrite !andb_true_iff, !eqb_true_iff, !negb_true_iff, same_list_spec, orb_true_iff, negb_true_iff.
    assert (R : refq_eqb r (p_ref p) = true <-> r = p_ref p) by (destruct r, (p_ref p); cbn; split; congruence). rewrite R.
    destruct ne, (p_noexcept p); intuition congruence.
  Qed.
  Lemma filter_one {A} (P : A -> bool) (l : list A) i x : nth_error l i = Some x -> P x = true -> (forall j y, nth_error l j = Some y -> P y = true -> j = i) -> filter P l = [x].
  Proof.
    revert i; induction l as [|a l IH]; intros [|i] E H U; cbn in E; try discriminate.
    - injection E as ->. cbn. rewrite H. f_equal. assert (N : forall y, In y l -> P y = false).
      { intros y I. apply In_nth_error in I as (j & I). destruct (P y) eqn:Y; [|reflexivity]. specialize (U (S j) y I Y). discriminate. }
      clear -N. induction l as [|a l IH]; [reflexivity|]. cbn. rewrite (N a (or_introl eq_refl)). apply IH. intros y I. apply N. now right.
    - cbn. destruct (P a) eqn:Y; [specialize (U 0 a eq_refl Y); discriminate|]. apply (IH i); trivial. intros j y Ej Hj. specialize (U (S j) y Ej Hj). congruence.
  Qed.
  (** The patterns that a function matches exactly, *)
  Definition pattern_of (c : candidate) : pattern := mkPattern (is_member c) (const_of c) (ref_of c) (noexcept_of c).
  Lemma pattern_of_in c : candidate_ok c -> volatile_of c = false -> In (pattern_of c) patterns.
  Proof.
    unfold candidate_ok, pattern_of, is_member, qualified, const_of, ref_of, noexcept_of, volatile_of. destruct c as [[o|] [ret args va k v r ne]]; cbn [owner signature]; intros H V; subst v.
    - destruct k, r, ne; cbn; auto 15.
    - specialize (H eq_refl). destruct k, r, ne; cbn in H; try discriminate; cbn; auto 20.
  Qed.
  Lemma viable_inv Args s p f : viable same Args s p = Some f -> In f (functions s) /\ deduces same Args p f = true.
  Proof.
    unfold viable. destruct (templates s); [discriminate|]. destruct (filter _ _) as [|g [|? ?]] eqn:E; try discriminate. intros X; injection X as ->.
    apply filter_In. rewrite E. now left.
  Qed.
  Lemma deduces_unique Args s p i j a b : distinct (functions s) -> nth_error (functions s) i = Some a -> nth_error (functions s) j = Some b ->
    deduces same Args p a = true -> deduces same Args p b = true -> i = j.
  Proof. intros D Ea Eb Ha Hb. apply deduces_spec in Ha, Hb. decompose [and] Ha. decompose [and] Hb. apply (D i j a b); trivial; congruence. Qed.
  Lemma viable_matching Args s p i a : templates s = false -> distinct (functions s) -> nth_error (functions s) i = Some a -> deduces same Args p a = true -> viable same Args s p = Some a.
  Proof.
    intros T D E H. unfold viable. rewrite T. rewrite (filter_one _ _ i a E H); [reflexivity|]. intros j y Ej Hj. eapply deduces_unique; eauto.
  Qed.
  Lemma deduces_own Args c : eligible Args c -> deduces same Args (pattern_of c) c = true.
  Proof. intros (P & V & W). apply deduces_spec. now repeat split. Qed.
  Lemma exact_own c : exact (pattern_of c) c = true.
  Proof. unfold exact, pattern_of, noexcept_of. destruct (signature c). apply eqb_reflx. Qed.
  Lemma exact_pattern Args p c : deduces same Args p c = true -> exact p c = true -> p = pattern_of c.
  Proof.
    intros H E. apply deduces_spec in H. decompose [and] H. unfold exact in E. unfold pattern_of. destruct p as [pm pc pr pn]; cbn in *. f_equal; try congruence.
    unfold noexcept_of. destruct (signature c). now apply eqb_prop in E.
  Qed.
  Lemma patterns_nodup : NoDup patterns.
  Proof. repeat constructor; cbn; intuition discriminate. Qed.

  (** The best candidates are the eligible functions, each through its own pattern. *)
  Definition contributions Args s p := match viable same Args s p with Some f => [(exact p f, f)] | None => [] end.
  Lemma best_members Args s f : templates s = false -> distinct (functions s) -> Forall candidate_ok (functions s) ->
    (In (true, f) (filter fst (flat_map (contributions Args s) patterns)) <-> In f (functions s) /\ eligible Args f).
  Proof.
    intros T D F. rewrite filter_In, in_flat_map. cbn [fst]. split.
    - intros ((p & Ip & I) & _). unfold contributions in I. destruct (viable same Args s p) as [g|] eqn:V; [|destruct I]. destruct I as [I|[]]. injection I as E ->.
      apply viable_inv in V as (I & H). split; [exact I|]. apply deduces_spec in H. decompose [and] H. now repeat split.
    - intros (I & E). split; [|reflexivity]. exists (pattern_of f). rewrite Forall_forall in F. split; [apply pattern_of_in; [now apply F | apply E]|].
      unfold contributions. apply In_nth_error in I as (i & I). rewrite (viable_matching Args s (pattern_of f) i f T D I (deduces_own _ _ E)). rewrite exact_own. now left.
  Qed.
  Lemma best_nodup Args s (ps : list pattern) : NoDup ps -> distinct (functions s) -> NoDup (map snd (filter fst (flat_map (contributions Args s) ps))).
  Proof.
    intros N D. induction N as [|p ps Np _ IH]; [constructor|]. cbn [flat_map]. rewrite filter_app, map_app.
    unfold contributions at 1. destruct (viable same Args s p) as [f|] eqn:V; [|exact IH]. cbn [filter fst].
    destruct (exact p f) eqn:E; [|exact IH]. cbn. constructor; [|exact IH]. intros I. apply in_map_iff in I as ((b & g) & Eg & I). cbn in Eg. subst g.
    apply filter_In in I as (I & B). cbn in B. subst b. apply in_flat_map in I as (q & Iq & I). unfold contributions in I.
    destruct (viable same Args s q) as [g|] eqn:W; [|destruct I]. destruct I as [I|[]]. injection I as X ->.
    apply viable_inv in V as (_ & V). apply viable_inv in W as (_ & W). pose proof (exact_pattern _ _ _ V E). pose proof (exact_pattern _ _ _ W X). congruence.
  Qed.

  (** Overload<Args...> finds [f] exactly when it is the only function of the set with these parameters (volatile and variadic ones not counted);
      an overload on const, on the ref-qualifier, or a template in the set make it ill-formed. *)
  Theorem C102_overload : forall Args s f, distinct (functions s) -> Forall candidate_ok (functions s) ->
    (Overload same Args s = Some f <->
     templates s = false /\ In f (functions s) /\ eligible Args f /\ forall g, In g (functions s) -> eligible Args g -> g = f).
  Proof.
    intros Args s f D F. unfold Overload. fold (contributions Args s). set (all := flat_map (contributions Args s) patterns). cbn zeta.
    destruct (templates s) eqn:T.
    - assert (A : all = []).
      { subst all. generalize patterns. induction l as [|p l IH]; [reflexivity|]. cbn. unfold contributions at 1, viable. rewrite T. exact IH. }
      rewrite A. cbn. split; [discriminate | intros (X & _); discriminate].
    - pose proof (fun g => best_members Args s g T D F) as BM. pose proof (best_nodup Args s patterns patterns_nodup D) as ND. fold all in BM, ND.
      set (best := filter fst all) in *.
      assert (TR : forall x, In x best -> fst x = true) by (intros x I; subst best; now apply filter_In in I).
      assert (HB : best = [] -> all = []).
      { intros E. destruct all as [|[b g] all'] eqn:A; [reflexivity|]. exfalso.
        assert (I : In (b, g) all) by (rewrite A; now left). subst all. clear A. apply in_flat_map in I as (p & Ip & I). unfold contributions in I.
        destruct (viable same Args s p) as [h|] eqn:V; [|destruct I]. destruct I as [I|[]]. injection I as X ->. apply viable_inv in V as (I & H).
        assert (EL : eligible Args g) by (apply deduces_spec in H; decompose [and] H; now repeat split).
        pose proof (proj2 (BM g) (conj I EL)) as Y. rewrite E in Y. destruct Y. }
      destruct (Nat.ltb_spec 0 (length best)) as [L|L].
      + destruct best as [|[b g] [|[b' g'] rest]] eqn:B; [cbn in L; lia | |].
        * assert (b = true) as -> by (apply (TR (b, g)); now left). destruct (proj1 (BM g) (or_introl eq_refl)) as (I & E). split.
          -- intros X; injection X as ->. split; [reflexivity|]. split; [exact I|]. split; [exact E|]. intros h Ih Eh.
             destruct (proj2 (BM h) (conj Ih Eh)) as [X|[]]. congruence.
          -- intros (_ & _ & _ & U). f_equal. now apply U.
        * split; [discriminate|]. intros (_ & I & E & U). exfalso.
          assert (b = true) as -> by (apply (TR (b, g)); now left). assert (b' = true) as -> by (apply (TR (b', g')); right; now left).
          destruct (proj1 (BM g) (or_introl eq_refl)) as (I1 & E1). destruct (proj1 (BM g') (or_intror (or_introl eq_refl))) as (I2 & E2).
          pose proof (U g I1 E1). pose proof (U g' I2 E2). cbn in ND. inversion ND as [|? ? X _]. apply X. left. congruence.
      + assert (best = []) as E by (destruct best; [reflexivity | cbn in L; lia]). rewrite (HB E). split; [discriminate|]. intros (_ & I & EL & _).
        pose proof (proj2 (BM f) (conj I EL)) as Y. rewrite E in Y. destruct Y.
  Qed.
  (** For every class, return types and parameters: a member function overloaded on const cannot be selected by its parameters, and a volatile one never. *)
  Theorem C102_const_refuted : forall Args n r1 r2 ne1 ne2,
    Overload same Args (mkSet [mkCandidate (Some n) (Fn r1 Args false false false RNone ne1); mkCandidate (Some n) (Fn r2 Args false true false RNone ne2)] false) = None /\
    (forall c r ne, Overload same Args (mkSet [mkCandidate (Some n) (Fn r1 Args false c true r ne)] false) = None).
  Proof.
    intros Args n r1 r2 ne1 ne2. split.
    - match goal with |- ?e = None => destruct e as [f|] eqn:E; [exfalso|reflexivity] end. apply C102_overload in E.
      + destruct E as (_ & _ & _ & U). pose proof (U _ (or_introl eq_refl) (conj eq_refl (conj eq_refl eq_refl))) as X.
        pose proof (U _ (or_intror (or_introl eq_refl)) (conj eq_refl (conj eq_refl eq_refl))) as Y. congruence.
      + intros [|[|i]] [|[|j]] a b Ea Eb; cbn in Ea, Eb; try (destruct i; discriminate); try (destruct j; discriminate); injection Ea as <-; injection Eb as <-; cbn; intros; trivial; discriminate.
      + repeat constructor; unfold candidate_ok; discriminate.
    - intros c r ne. match goal with |- ?e = None => destruct e as [f|] eqn:E; [exfalso|reflexivity] end. apply C102_overload in E.
      + destruct E as (_ & [<-|[]] & (_ & _ & V) & _). discriminate.
      + intros [|i] [|j] a b Ea Eb; trivial; cbn in Ea, Eb; try (destruct i; discriminate); destruct j; discriminate.
      + repeat constructor; unfold candidate_ok; discriminate.
  Qed.
End Overload.
Print Assumptions C102_overload.
Print Assumptions C102_const_refuted.
Definition scalar_same (a b : ty) : bool := match a, b with Ty c v (BScalar n), Ty c' v' (BScalar m) => Bool.eqb c c' && Bool.eqb v v' && (n =? m) | _, _ => false end.
Example C102_nonvacuous :
  let f := mkCandidate (Some 0) (Fn int_ty [int_ty] false true false RNone true) in
  let g := mkCandidate (Some 0) (Fn int_ty [char_ty] false false false RNone false) in
  Overload scalar_same [int_ty] (mkSet [g; f] false) = Some f /\ Overload scalar_same [char_ty] (mkSet [g; f] false) = Some g /\
  Overload scalar_same [] (mkSet [g; f] false) = None /\ Overload scalar_same [int_ty] (mkSet [g; f] true) = None.
Proof. now vm_compute. Qed.

(** ** C103 *)
(** EnumValueCount: for enumerators numbered from 0 and followed by Count, or whose last one is aliased by Max, their number; *)
Theorem C103_enum_count : forall n : nat, (Z.of_nat n < 2 ^ 64)%Z ->
  EnumValueCount true (Some (Z.of_nat n)) None = Some (Z.of_nat n) /\
  (0 < n -> EnumValueCount true None (Some (Z.of_nat n - 1)%Z) = Some (Z.of_nat n)).
Proof.
  intros n H. unfold EnumValueCount, cast. cbn [sgn wid u64]. split; [rewrite Z.mod_small by lia; reflexivity|].
  intros P. rewrite (Z.mod_small (Z.of_nat n - 1)) by lia. rewrite Z.mod_small by lia. f_equal. lia.
Qed.
Print Assumptions C103_enum_count.
(** an enumeration with both is rejected, like one with none; negative values wrap. *)
Theorem C103_enum_both_refuted : forall e c m, EnumValueCount e (Some c) (Some m) = None /\ EnumValueCount e None None = None /\
  EnumValueCount true None (Some (-1)%Z) = Some 0%Z /\ EnumValueCount true (Some (-1)%Z) None = Some (2 ^ 64 - 1)%Z.
Proof. intros. now repeat split. Qed.
Print Assumptions C103_enum_both_refuted.
(** RemoveCvRef: neither reference nor qualified, idempotent, blind to references and qualifiers; *)
Theorem C103_remove_cvref : forall c v b, is_reference (Ty c v b) = false ->
  let U := RemoveCvRef (Ty c v b) in
  U = plain_ty b /\ is_reference U = false /\ RemoveCvRef U = U /\ RemoveCvRef (plain_ty (BLRef (Ty c v b))) = U /\ RemoveCvRef (plain_ty (BRRef (Ty c v b))) = U.
Proof. intros c v b H. destruct b; try discriminate; now repeat split. Qed.
Print Assumptions C103_remove_cvref.
(** PointedType: the pointed type with its own qualifiers, whatever those of the pointer; an error for other types. FunctionPtr: a pointer to the function. *)
Theorem C103_pointers : forall t c v b,
  PointedType (Ty c v (BPointer t)) = Some t /\ ((forall u, b <> BPointer u) -> PointedType (Ty c v b) = None) /\
  (forall ret args p, FunctionPtr (plain_ty (BFunction (plain_fn ret args))) = Some p -> PointedType p = Some (plain_ty (BFunction (plain_fn ret args)))).
Proof. intros t c v b. repeat split. - intros H. destruct b; trivial. now elim (H t0). - intros ret args p E. cbn in E. injection E as <-. reflexivity. Qed.
Print Assumptions C103_pointers.
(** IsFirstType, and PreventHiddenCopyMove: off exactly for one argument that is the class itself up to references and qualifiers. *)
Theorem C103_packs : forall same T args, (forall a b, same a b = true <-> a = b) ->
  (IsFirstType same T args = true <-> exists rest, args = T :: rest) /\
  (PreventHiddenCopyMove same T args = false <-> exists a, args = [a] /\ RemoveCvRef a = T).
Proof.
  intros same T args S. split.
  - destruct args as [|a args]; cbn; [split; [discriminate | intros (? & E); discriminate]|]. rewrite S. split; [intros ->; eauto | intros (r & E); congruence].
  - destruct args as [|a [|b args]]; cbn; [split; [discriminate | intros (? & E & _); discriminate]| |split; [discriminate | intros (? & E & _); discriminate]].
    rewrite negb_false_iff, S. split; [intros ->; eauto | intros (x & E & R); congruence].
Qed.
Print Assumptions C103_packs.
(** IsComplete: exactly the object types with a size; an error for references. *)
Theorem C103_complete : forall complete c v n t,
  IsComplete complete (Ty c v (BClass n)) = Some (complete n) /\ IsComplete complete (Ty c v (BPointer t)) = Some true /\
  IsComplete complete (Ty c v (BScalar 0)) = Some false /\ (forall f, IsComplete complete (Ty c v (BFunction f)) = Some false) /\
  IsComplete complete (Ty c v (BLRef t)) = None /\ IsComplete complete (Ty c v (BRRef t)) = None.
Proof. intros. now repeat split. Qed.
Print Assumptions C103_complete.
Example C103_nonvacuous :
  EnumValueCount true None (Some 3%Z) = Some 4%Z /\ RemoveCvRef (plain_ty (BLRef (Ty true true (BClass 4)))) = plain_ty (BClass 4) /\
  PreventHiddenCopyMove scalar_same int_ty [plain_ty (BLRef (Ty true false (BScalar 1)))] = false /\ PreventHiddenCopyMove scalar_same int_ty [char_ty] = true /\
  PreventHiddenCopyMove scalar_same int_ty [int_ty; int_ty] = true.
Proof. now vm_compute. Qed.
