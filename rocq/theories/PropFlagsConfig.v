(** Property C120: the declarations that turn an enumeration into flags. *)
From Coq Require Import String.
From Verif Require Import Base CInt FlagsSpec FlagsModel FlagsProofs PropFlags FlagsConfigModel.
Open Scope Z_scope.
Open Scope list_scope.

(** Enumerators with the values 0, 1, 2, ... *)
Fixpoint numbered (from : Z) (names : list string) : list (string * Z) :=
  match names with [] => [] | x :: l => (x, from) :: numbered (from + 1) l end.
Definition ordinary (names : list string) : Prop := ~ In "Count"%string names /\ ~ In "Max"%string names /\ ~ In "AutoFlag"%string names.
Definition no_max (s : option specialisation) : Prop := forall m a, s <> Some (Specialisation (Some m) a).
(** The three ways to give the number of enumerators: a last one called Count, an alias of the last one called Max, EnumAsFlags<E>::max. *)
Inductive declares (names : list string) : declaration -> Prop :=
  | with_count s f g : no_max s -> declares names (Declaration (numbered 0 names ++ [("Count"%string, Z.of_nat (length names))]) s f g)
  | with_max s f g : no_max s -> declares names (Declaration (numbered 0 names ++ [("Max"%string, Z.of_nat (length names) - 1)]) s f g)
  | with_specialisation a f g : declares names (Declaration (numbered 0 names) (Some (Specialisation (Some (Z.of_nat (length names) - 1)) a)) f g).
(** Enabled by a function or by a specialisation. *)
Definition enabled (d : declaration) : Prop := enable_function d = Some true \/ as_flags d <> None.

Lemma find_numbered names x tail : ~ In x names -> forall from, find (fun e => String.eqb (fst e) x) (numbered from names ++ tail) = find (fun e => String.eqb (fst e) x) tail.
Proof.
  induction names as [|y names IH]; intros N from; [reflexivity|]. cbn. destruct (String.eqb_spec y x) as [->|]; [exfalso; apply N; left; reflexivity|].
  apply IH. intros I. apply N. now right.
Qed.
Lemma enabled_flag d : enabled d <-> IsEnumFlag d = true.
Proof.
  unfold enabled, IsEnumFlag. destruct (enable_function d) as [[]|], (as_flags d); split; intros H; trivial; try discriminate; try (now left); try (now right);
    try (right; discriminate); destruct H as [H|H]; try discriminate; now contradiction H.
Qed.

(** An enabled enumeration of [n] enumerators has the flags 0 .. n - 1; they are numbered unless EnableAutoFlagForNzFlags says otherwise. *)
Theorem C120_declared : forall names d, declares names d -> ordinary names -> enabled d -> 0 < Z.of_nat (length names) < 2 ^ 64 ->
  configure d = Some (Z.of_nat (length names) - 1, match auto_function d with Some b => b | None => true end).
Proof.
  intros names d D (N1 & N2 & N3) E H. apply enabled_flag in E. unfold configure. rewrite E.
  assert (C : forall x, 0 <= x < 2 ^ 64 -> cast u64 x = x) by (intros x X; unfold cast; cbn [sgn wid u64]; apply Z.mod_small; exact X).
  destruct D as [s f g S|s f g S|a f g]; unfold GetEnumFlagMax, GetEnumAutoFlag, enumerator; cbn [enumerators as_flags auto_function].
  - rewrite !find_numbered by assumption. cbn [find fst String.eqb Ascii.eqb Bool.eqb option_map snd].
    assert (R : match s with Some (Specialisation (Some m) _) => Some (cast u64 m) | _ => option_map (fun n => cast u64 (n - 1)) (TraitsModel.EnumValueCount true (Some (Z.of_nat (length names))) None) end = Some (Z.of_nat (length names) - 1)).
    { destruct s as [[[m|] b]|]; [exfalso; exact (S m b eq_refl)| |]; cbn [TraitsModel.EnumValueCount option_map]; rewrite !C by (rewrite ?C by lia; lia); reflexivity. }
    now rewrite R.
  - rewrite !find_numbered by assumption. cbn [find fst String.eqb Ascii.eqb Bool.eqb option_map snd].
    assert (R : match s with Some (Specialisation (Some m) _) => Some (cast u64 m) | _ => option_map (fun n => cast u64 (n - 1)) (TraitsModel.EnumValueCount true None (Some (Z.of_nat (length names) - 1))) end = Some (Z.of_nat (length names) - 1)).
    { destruct s as [[[m|] b]|]; [exfalso; exact (S m b eq_refl)| |]; cbn [TraitsModel.EnumValueCount option_map]; rewrite (C (Z.of_nat (length names) - 1)) by lia;
        f_equal; unfold cast; cbn [sgn wid u64]; rewrite Zminus_mod_idemp_l; replace (Z.of_nat (length names) - 1 + 1 - 1) with (Z.of_nat (length names) - 1) by lia; apply Z.mod_small; lia. }
    now rewrite R.
  - rewrite <- (app_nil_r (numbered 0 names)), find_numbered by assumption. cbn [find option_map]. rewrite C by lia. reflexivity.
Qed.
Print Assumptions C120_declared.
(** Up to 32 enumerators, numbered: every expression evaluates to the set of enumerators it denotes. *)
Theorem C120_expressions_partial : forall names d x, declares names d -> ordinary names -> enabled d -> auto_function d <> Some false -> (0 < length names <= 32)%nat ->
  enums (fun e => 0 <= e < Z.of_nat (length names)) x ->
  exists mx, configure d = Some (mx, true) /\ mx + 1 = Z.of_nat (length names) /\ exists v, eval mx true x = Done v /\ holds mx v (denote true x).
Proof.
  intros names d x D O E A L X. exists (Z.of_nat (length names) - 1). split; [|split; [lia|]].
  - rewrite (C120_declared names d D O E) by lia. destruct (auto_function d) as [[]|]; trivial. now contradiction A.
  - apply C56_expressions; [lia|]. revert X. assert (W : forall y, enums (fun e => 0 <= e < Z.of_nat (length names)) y -> enums (fun e => 0 <= e <= Z.of_nat (length names) - 1) y) by (induction y; cbn [enums]; intuition lia). apply W.
Qed.
Print Assumptions C120_expressions_partial.
(** Flags<E> compiles only if it is enabled; without EnumAsFlags<E>::max, exactly one of Count and Max is required. *)
Theorem C120_required : forall d, configure d <> None <->
  enabled d /\ ((exists m a, as_flags d = Some (Specialisation (Some m) a)) \/ (enumerator d "Count" = None <-> enumerator d "Max" <> None)) /\ enumerator d "AutoFlag" = None.
Proof.
  intros d. unfold configure. rewrite enabled_flag. destruct (IsEnumFlag d); [|split; [intros H; now contradiction H | intros (H & _); discriminate]].
  unfold GetEnumFlagMax, GetEnumAutoFlag. destruct (enumerator d "AutoFlag") as [z|].
  { split; [|intros (_ & _ & H); discriminate]. intros H. exfalso. apply H. now match goal with |- match ?x with _ => _ end = None => destruct x end. }
  destruct (as_flags d) as [[[m|] a]|].
  - split; [|discriminate]. intros _. split; [reflexivity|]. split; [left; eauto | reflexivity].
  - destruct (enumerator d "Count") as [c|], (enumerator d "Max") as [m|]; cbn; split; intros H; try discriminate; try (now contradiction H);
      try (split; [reflexivity|]; split; [right; split; congruence | reflexivity]);
      destruct H as (_ & [(m0 & a0 & H)|[H1 H2]] & _); try discriminate; exfalso; try (specialize (H1 eq_refl); congruence); enough (Some c = None) by discriminate; apply H2; discriminate.
  - destruct (enumerator d "Count") as [c|], (enumerator d "Max") as [m|]; cbn; split; intros H; try discriminate; try (now contradiction H);
      try (split; [reflexivity|]; split; [right; split; congruence | reflexivity]);
      destruct H as (_ & [(m0 & a0 & H)|[H1 H2]] & _); try discriminate; exfalso; try (specialize (H1 eq_refl); congruence); enough (Some c = None) by discriminate; apply H2; discriminate.
Qed.
Print Assumptions C120_required.
(** The member AutoFlag of a specialisation has no effect, and an enumerator called AutoFlag stops the compilation. *)
Theorem C120_auto_flag_refuted : forall es m a b f g,
  configure (Declaration es (Some (Specialisation m (Some a))) f g) = configure (Declaration es (Some (Specialisation m b)) f g) /\
  (In "AutoFlag"%string (map fst es) -> forall s, configure (Declaration es s f g) = None).
Proof.
  intros es m a b f g. split; [reflexivity|]. intros I s. unfold configure. destruct (IsEnumFlag _); [|reflexivity].
  assert (Q : GetEnumAutoFlag (Declaration es s f g) = None).
  { unfold GetEnumAutoFlag, enumerator. cbn [enumerators]. apply in_map_iff in I. destruct I as (e & E & I).
    destruct (find (fun e => String.eqb (fst e) "AutoFlag") es) as [p|] eqn:F; [reflexivity|]. exfalso.
    apply (find_none _ _ F) in I. rewrite E in I. discriminate. }
  rewrite Q. now destruct (GetEnumFlagMax _).
Qed.
Print Assumptions C120_auto_flag_refuted.
(** Enumerators with the values 1, 2, 4, ..., 2^k: the maximum counts bits, not enumerators. From 2^6 on the complement does not compile. *)
Theorem C120_by_value_refuted : forall es a f k v, 6 <= k < 64 -> let d := Declaration es (Some (Specialisation (Some (2 ^ k)) a)) f (Some false) in
  enumerator d "AutoFlag" = None -> exists mx, configure d = Some (mx, false) /\ mx = 2 ^ k /\ flags_not mx v = Fault FUB.
Proof.
  intros es a f k v K d N. exists (2 ^ k). assert (B : 64 <= 2 ^ k < 2 ^ 64) by (change 64 with (2 ^ 6) at 1; split; [apply Z.pow_le_mono_r | apply Z.pow_lt_mono_r]; lia).
  assert (B1 : 2 ^ k + 1 < 2 ^ 64). { assert (2 ^ k <= 2 ^ 63) by (apply Z.pow_le_mono_r; lia). change (2 ^ 64) with (2 * 2 ^ 63). lia. }
  split; [|split; [reflexivity|]].
  - unfold configure, IsEnumFlag, GetEnumFlagMax, GetEnumAutoFlag, d in *. cbn [enable_function as_flags auto_function]. rewrite N. unfold cast. cbn [sgn wid u64]. rewrite Z.mod_small by lia. now destruct f as [[]|].
  - unfold flags_not, ValueMask, shl. replace (cast u64 (2 ^ k + 1)) with (2 ^ k + 1) by (unfold cast; cbn [sgn wid u64]; rewrite Z.mod_small by lia; reflexivity).
    unfold require. cbn [wid u64]. replace (2 ^ k + 1 <? 64) with false by (symmetry; apply Z.ltb_ge; lia). rewrite andb_false_r. reflexivity.
Qed.
Print Assumptions C120_by_value_refuted.
(** An enumeration with no enumerator but Count: no flag. *)
Theorem C120_empty : forall f g, let d := Declaration [("Count"%string, 0)] (Some (Specialisation None None)) f g in
  exists mx a, configure d = Some (mx, a) /\ ValueMask mx = Done 0.
Proof. intros f g. exists (2 ^ 64 - 1), (match g with Some b => b | None => true end). destruct f as [[]|]; split; reflexivity. Qed.
Print Assumptions C120_empty.
(** The enumerations of tests/src/FlagTests.cpp: { A, B, C } with EnumAsFlags, { A = 1, B = 2, C = 4, Count } with the functions. *)
Example C120_example : declares ["A"; "B"; "C"]%string (Declaration (numbered 0 ["A"; "B"; "C"]%string) (Some (Specialisation (Some 2) None)) None None) /\
  configure (Declaration [("A"%string, 0); ("B"%string, 1); ("C"%string, 2)] (Some (Specialisation (Some 2) None)) None None) = Some (2, true) /\
  configure (Declaration [("A"%string, 1); ("B"%string, 2); ("C"%string, 4); ("Count"%string, 5)] None (Some true) (Some false)) = Some (4, false) /\
  configure (Declaration [("A"%string, 0); ("Max"%string, 0); ("Count"%string, 1)] None (Some true) None) = None /\ configure (Declaration [("A"%string, 0); ("Count"%string, 1)] None (Some false) None) = None.
Proof. split; [exact (with_specialisation ["A"; "B"; "C"]%string None None None) | repeat split]. Qed.
