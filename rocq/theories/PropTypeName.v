(** Property C72: TypeName. *)
From Coq Require Import Ascii String.
From Coq Require Import List.
From Verif Require Import Base CInt MathProofs TypeNameModel.
Open Scope list_scope.
Open Scope Z_scope.

Lemma last_index_app f a b : last_index f (a ++ b) = match last_index f b with Some k => Some (length a + k)%nat | None => last_index f a end.
Proof.
  induction a as [|x a IH]; cbn [app last_index length Nat.add]; [now destruct (last_index f b)|]. rewrite IH. destruct (last_index f b); [reflexivity|]. reflexivity.
Qed.
Lemma last_index_lt f a k : last_index f a = Some k -> (k < length a)%nat.
Proof.
  revert k. induction a as [|x a IH]; intros k; cbn [last_index length]; [discriminate|].
  destruct (last_index f a) as [j|]; [intros H; injection H as <-; specialize (IH j eq_refl); lia|]. destruct (f x); [|discriminate]. intros H; injection H as <-. lia.
Qed.
Lemma last_index_none f a : (forall c, In c a -> f c = false) -> last_index f a = None.
Proof. induction a as [|x a IH]; intros H; cbn [last_index]; [reflexivity|]. rewrite IH by (intros; apply H; now right). rewrite (H x (or_introl eq_refl)). reflexivity. Qed.
Lemma size_app a b : size (a ++ b) = size a + size b.
Proof. unfold size. rewrite app_length. lia. Qed.
Lemma substr_app a b c : size (a ++ b ++ c) <= npos -> forall n, n = size b -> substr (a ++ b ++ c) (size a) n = Done b.
Proof.
  intros H n ->. unfold substr. rewrite !size_app in *. assert (0 <= size a /\ 0 <= size b /\ 0 <= size c) by (unfold size; lia).
  destruct (Z.leb_spec (size a) (size a + (size b + size c))); [|lia]. f_equal.
  rewrite Z.min_l by lia. unfold size. rewrite !Nat2Z.id, skipn_app, skipn_all, Nat.sub_diag. cbn [skipn app].
  rewrite firstn_app, Nat.sub_diag, firstn_all. cbn [firstn]. now rewrite app_nil_r.
Qed.

Section General.
  (** A signature text [P prefix X c S] where the prefix is first found at its place, and the next suffix character after c is further than [|P|] from the prefix. *)
  Context (prefix suffixes P S : text) (c : ascii).
  Context (Hc : one_of suffixes c = true) (Hprefix : forall x, In x prefix -> one_of suffixes x = false) (HP : P <> []).
  Definition pretty (X : text) : text := P ++ prefix ++ X ++ c :: S.
  Definition found (X : text) : Prop := first_index prefix (pretty X) = Some (length P).
  Definition far (X : text) : Prop := forall k, last_index (one_of suffixes) (firstn k S) <> None -> (length P < length prefix + length X + k)%nat.
  Definition fits (X : text) : Prop := 2 * size (pretty X) < npos.

  Lemma extract_eq X : found X -> fits X ->
    let s := prefix ++ X ++ c :: S in
    let e := cast u64 (find_last_of s suffixes (size P) + size P) in
    extract prefix suffixes (pretty X) = (assert (negb (e =? npos)) ;;; substr (pretty X) (size P + size prefix) (cast u64 (e - (size P + size prefix)))).
  Proof.
    intros F L s e. unfold fits, pretty in L. rewrite !size_app in L. assert (0 <= size P /\ 0 <= size prefix /\ 0 <= size X /\ 0 <= size (c :: S)) by (unfold size; lia).
    unfold extract, find. unfold found in F. rewrite F. cbn [position]. fold (size P). destruct (Z.eqb_spec (size P) npos); [lia|]. cbn [negb assert bind].
    assert (S1 : substr (pretty X) (size P) npos = Done s).
    { unfold pretty. fold s. unfold substr. rewrite size_app. destruct (Z.leb_spec (size P) (size P + size s)); [|unfold size in *; lia].
      f_equal. assert (SS : size s = size prefix + (size X + size (c :: S))) by (unfold s; now rewrite !size_app).
      replace (Z.to_nat (size P)) with (length P) by (unfold size; lia). rewrite skipn_app, skipn_all, Nat.sub_diag. cbn [skipn app]. apply firstn_all2.
      rewrite Z.min_r by lia. unfold size. lia. }
    rewrite S1. cbn [bind]. fold e. assert (Cp : cast u64 (size P + size prefix) = size P + size prefix).
    { apply cast_id; [reflexivity|]. unfold in_range. unfold npos in L. cbn in *. lia. }
    rewrite Cp. reflexivity.
  Qed.
  (** The name is extracted if it ends within [|P|] characters of the prefix, and only then. *)
  Lemma extract_spec X : found X -> far X -> fits X -> extract prefix suffixes (pretty X) = Done X <-> (length prefix + length X <= length P)%nat.
  Proof.
    intros F R L. rewrite (extract_eq X F L). cbv zeta. set (s := prefix ++ X ++ c :: S). pose proof L as L'. unfold fits, pretty in L. rewrite !size_app in L.
    assert (N : 0 < size P /\ 0 <= size prefix /\ 0 <= size X /\ 0 < size (c :: S)) by (unfold size; destruct P; [congruence|cbn [length]; lia]).
    assert (SS : size s = size prefix + (size X + size (c :: S))) by (unfold s; now rewrite !size_app).
    assert (Lb : npos = 18446744073709551615) by reflexivity.
    assert (Cu : forall z, 0 <= z <= npos -> cast u64 z = z) by (intros z Hz; apply cast_id; [reflexivity|]; unfold in_range; rewrite Lb in Hz; cbn; lia).
    assert (Cm : forall z, 0 <= z <= npos -> cast u64 (z - npos - 1) = z).
    { intros z Hz. unfold cast. cbn [sgn u64 wid]. rewrite Lb in *. replace (z - 18446744073709551615 - 1) with (z + (-1) * 2 ^ 64) by lia. rewrite Z_mod_plus_full. apply Z.mod_small. lia. }
    remember (Z.to_nat (Z.min (size P) (size s))) as m eqn:Em.
    assert (Hm : m = Nat.min (length P) (length prefix + length X + 1 + length S)) by (rewrite Em, SS; unfold size; cbn [length]; lia).
    set (w := firstn (m + 1) s).
    assert (FL : find_last_of s suffixes (size P) = position (last_index (one_of suffixes) w)) by (unfold w; rewrite Em; reflexivity). rewrite FL. clear FL Em.
    destruct (Nat.le_gt_cases (length prefix + length X) (length P)) as [G|G].
    - (* short *)
      assert (W : exists k, w = prefix ++ X ++ c :: firstn k S /\ (length P = length prefix + length X + k \/ (length P >= length prefix + length X + k /\ firstn k S = S))%nat).
      { exists (m - length prefix - length X)%nat. unfold w, s. split.
        - rewrite firstn_app. rewrite (firstn_all2 prefix) by lia. f_equal. rewrite firstn_app. rewrite (firstn_all2 X) by lia. f_equal.
          replace (m + 1 - length prefix - length X)%nat with (Datatypes.S (m - length prefix - length X)) by lia. reflexivity.
        - destruct (Nat.le_gt_cases (length P) (length prefix + length X + 1 + length S)) as [M|M]; [left; lia|]. right. split; [lia|]. apply firstn_all2. lia. }
      destruct W as (k & -> & K).
      assert (E : last_index (one_of suffixes) (prefix ++ X ++ c :: firstn k S) = Some (length prefix + length X)%nat).
      { rewrite app_assoc, last_index_app. cbn [last_index].
        destruct (last_index (one_of suffixes) (firstn k S)) as [j|] eqn:J.
        - exfalso. assert (length P < length prefix + length X + k)%nat by (apply R; congruence).
          destruct K as [K|[K1 K2]]; lia.
        - rewrite Hc, app_length. f_equal. lia. }
      rewrite E. cbn [position]. replace (Z.of_nat (length prefix + length X)) with (size prefix + size X) by (unfold size; lia).
      rewrite Cu by lia. destruct (Z.eqb_spec (size prefix + size X + size P) npos); [lia|]. cbn [negb assert bind]. rewrite Cu by lia.
      split; [intros _; exact G|]. intros _. unfold pretty. rewrite app_assoc. rewrite <- size_app.
      apply substr_app; [rewrite <- app_assoc; unfold pretty in L'; unfold fits, pretty in L'; lia | rewrite size_app; lia].
    - (* long *)
      split; [|lia]. intros E. exfalso.
      assert (WL : (length w <= length P + 1)%nat) by (unfold w; rewrite firstn_length; lia).
      destruct (last_index (one_of suffixes) w) as [k|] eqn:K; cbn [position] in E.
      + assert (KL : (k < length w)%nat) by (now apply (last_index_lt (one_of suffixes))).
        rewrite (Cu (Z.of_nat k + size P)) in E by (unfold size in *; lia). destruct (Z.eqb_spec (Z.of_nat k + size P) npos); [unfold size in *; lia|]. cbn [negb assert bind] in E.
        assert (KP : (length prefix <= k)%nat).
        { destruct (Nat.le_gt_cases (length prefix) k) as [?|KP]; [assumption|]. exfalso.
          assert (WP : exists r, w = prefix ++ r \/ exists q, prefix = w ++ q).
          { unfold w, s. rewrite firstn_app. match goal with |- context [firstn ?n prefix] => destruct (Nat.le_gt_cases (length prefix) n) end.
            - rewrite (firstn_all2 prefix) by assumption. eexists; left; reflexivity.
            - exists []. right. match goal with |- context [firstn (?n - length prefix) _] => replace (n - length prefix)%nat with 0%nat by lia; exists (skipn n prefix) end. cbn [firstn]. rewrite app_nil_r. now rewrite firstn_skipn. }
          destruct WP as (r & [WP|(q & WP)]).
          - rewrite WP, last_index_app in K. destruct (last_index (one_of suffixes) r); [injection K as <-; lia|]. rewrite (last_index_none _ prefix Hprefix) in K. discriminate.
          - rewrite (last_index_none _ w) in K; [discriminate|]. intros x I. apply Hprefix. rewrite WP. apply in_or_app. now left. }
        rewrite Cu in E by (unfold size in *; lia). unfold substr in E. destruct (_ <=? _); [|discriminate]. injection E as E. apply (f_equal (@length ascii)) in E.
        rewrite firstn_length in E. unfold size in *. lia.
      + replace (npos + size P) with (size P - 1 + npos + 1) in E by lia.
        assert (C1 : cast u64 (size P - 1 + npos + 1) = size P - 1).
        { unfold cast. cbn [sgn u64 wid]. rewrite Lb in *. replace (size P - 1 + 18446744073709551615 + 1) with (size P - 1 + 1 * 2 ^ 64) by lia. rewrite Z_mod_plus_full. apply Z.mod_small. lia. }
        rewrite C1 in E. destruct (Z.eqb_spec (size P - 1) npos); [lia|]. cbn [negb assert bind] in E.
        replace (size P - 1 - (size P + size prefix)) with (npos - size prefix - npos - 1) in E by lia. rewrite Cm in E by lia.
        unfold substr in E. destruct (_ <=? _); [|discriminate]. injection E as E. apply (f_equal (@length ascii)) in E. rewrite firstn_length, skipn_length in E.
        unfold pretty in E. rewrite !app_length in E. unfold pretty in E. unfold size in *. rewrite !app_length in E. cbn [length] in *. lia.
  Qed.
  (** A longer name without suffix character comes out with the rest of the signature. *)
  Lemma extract_long X : found X -> fits X -> (length P < length prefix + length X)%nat -> (forall x, In x (firstn (length P + 1 - length prefix) X) -> one_of suffixes x = false) -> extract prefix suffixes (pretty X) = Done (X ++ c :: S).
  Proof.
    intros F L G NX. rewrite (extract_eq X F L). cbv zeta. set (s := prefix ++ X ++ c :: S). pose proof L as L'. unfold fits, pretty in L. rewrite !size_app in L.
    assert (N : 0 < size P /\ 0 <= size prefix /\ 0 <= size X /\ 0 < size (c :: S)) by (unfold size; destruct P; [congruence|cbn [length]; lia]).
    assert (Lb : npos = 18446744073709551615) by reflexivity.
    assert (FL : find_last_of s suffixes (size P) = npos).
    { unfold find_last_of. rewrite last_index_none; [reflexivity|]. intros x I. unfold s in I. rewrite app_assoc, firstn_app in I.
      match type of I with In x (_ ++ firstn ?n _) => replace n with 0%nat in I by (rewrite app_length; unfold size in *; lia) end. cbn [firstn] in I. rewrite app_nil_r in I.
      replace (Z.to_nat (Z.min (size P) (size ((prefix ++ X) ++ c :: S))) + 1)%nat with (length P + 1)%nat in I by (rewrite !size_app; unfold size in *; lia).
      rewrite firstn_app in I. apply in_app_or in I as [J|J]; [|auto].
      apply Hprefix. rewrite <- (firstn_skipn (length P + 1) prefix). apply in_or_app. now left. }
    rewrite FL. replace (npos + size P) with (size P - 1 + npos + 1) by lia.
    assert (C1 : cast u64 (size P - 1 + npos + 1) = size P - 1).
    { unfold cast. cbn [sgn u64 wid]. rewrite Lb in *. replace (size P - 1 + 18446744073709551615 + 1) with (size P - 1 + 1 * 2 ^ 64) by lia. rewrite Z_mod_plus_full. apply Z.mod_small. lia. }
    rewrite C1. destruct (Z.eqb_spec (size P - 1) npos); [lia|]. cbn [negb assert bind].
    assert (C2 : cast u64 (size P - 1 - (size P + size prefix)) = npos - size prefix).
    { unfold cast. cbn [sgn u64 wid]. rewrite Lb in *. replace (size P - 1 - (size P + size prefix)) with (18446744073709551615 - size prefix + (-1) * 2 ^ 64) by lia. rewrite Z_mod_plus_full. apply Z.mod_small. lia. }
    rewrite C2. unfold substr, pretty. rewrite !size_app. destruct (Z.leb_spec (size P + size prefix) (size P + (size prefix + (size X + size (c :: S))))); [|lia]. f_equal.
    rewrite Z.min_r by lia. rewrite app_assoc. replace (Z.to_nat (size P + size prefix)) with (length (P ++ prefix)) by (rewrite app_length; unfold size; lia).
    rewrite skipn_app, skipn_all, Nat.sub_diag. cbn [skipn app]. apply firstn_all2. rewrite app_length. unfold size. lia.
  Qed.
  (** One with a suffix character is cut at the last of those within [|P|] characters of the prefix. *)
  Lemma extract_cut A d B : found (A ++ d :: B) -> fits (A ++ d :: B) -> (length P < length prefix + length (A ++ d :: B))%nat -> one_of suffixes d = true ->
    (length prefix + length A <= length P)%nat -> (forall x, In x (firstn (length P - length prefix - length A) B) -> one_of suffixes x = false) ->
    extract prefix suffixes (pretty (A ++ d :: B)) = Done A.
  Proof.
    intros F L G D W NB. rewrite (extract_eq _ F L). cbv zeta. set (X := A ++ d :: B) in *. set (s := prefix ++ X ++ c :: S). pose proof L as L'. unfold fits, pretty in L. rewrite !size_app in L.
    assert (N : 0 < size P /\ 0 <= size prefix /\ 0 <= size X /\ 0 < size (c :: S)) by (unfold size; destruct P; [congruence|cbn [length]; lia]).
    assert (Lb : npos = 18446744073709551615) by reflexivity.
    assert (SS : size s = size prefix + (size X + size (c :: S))) by (unfold s; now rewrite !size_app).
    assert (FL : find_last_of s suffixes (size P) = size prefix + size A).
    { unfold find_last_of. rewrite Z.min_l by (unfold size in *; lia). replace (Z.to_nat (size P) + 1)%nat with (length P + 1)%nat by (unfold size; lia).
      set (k := (length P - length prefix - length A)%nat).
      assert (E : firstn (length P + 1) s = prefix ++ A ++ d :: firstn k B).
      { unfold s, X. rewrite <- !app_assoc. replace (length P + 1)%nat with (length prefix + (length A + Datatypes.S k))%nat by (unfold k; lia).
        rewrite !firstn_app_2. cbn [app firstn]. do 3 f_equal. rewrite firstn_app. replace (k - length B)%nat with 0%nat; [cbn [firstn]; apply app_nil_r|].
        unfold X in G. rewrite app_length in G. cbn [length] in G. unfold k. lia. }
      rewrite E, !last_index_app. cbn [last_index]. rewrite (last_index_none (one_of suffixes) (firstn k B) NB), D. cbn [position]. unfold size. lia. }
    rewrite FL. assert (LA : size A < size X) by (unfold X; rewrite size_app; unfold size; cbn [length]; lia). assert (0 <= size A) by (unfold size; lia).
    rewrite cast_id; [|reflexivity|unfold in_range; cbn; lia]. destruct (Z.eqb_spec (size prefix + size A + size P) npos); [lia|]. cbn [negb assert bind].
    rewrite cast_id; [|reflexivity|unfold in_range; cbn; lia]. unfold pretty. replace (P ++ prefix ++ X ++ c :: S) with ((P ++ prefix) ++ A ++ (d :: B ++ c :: S)) by (unfold X; now rewrite <- !app_assoc).
    replace (size P + size prefix) with (size (P ++ prefix)) by apply size_app. apply substr_app; [|rewrite size_app; lia].
    rewrite !size_app. assert (size (d :: B ++ c :: S) <= size X + size (c :: S)) by (unfold X; unfold size; rewrite !app_length; cbn [length]; rewrite app_length; cbn [length]; lia). lia.
  Qed.
End General.

(** *** C72 *)
(** Texts that a compiler can handle. *)
Definition reasonable (X : text) : Prop := size X < 2 ^ 62.
(** gcc: exactly the names of at most 48 characters are right, *)
Theorem C72_gcc_partial : forall X, reasonable X -> type_name_gnu (pretty_gcc X) = Done X <-> (length X <= 48)%nat.
Proof.
  intros X R. pose proof (extract_spec prefix_gnu suffixes_gnu before_gcc (tl after_gcc) ";"%char) as E.
  change (type_name_gnu (pretty_gcc X)) with (extract prefix_gnu suffixes_gnu (pretty prefix_gnu before_gcc (tl after_gcc) ";"%char X)).
  rewrite E.
  - cbn. lia.
  - reflexivity.
  - cbn. intros x H; decompose [or] H; subst; try contradiction; reflexivity.
  - discriminate.
  - reflexivity.
  - intros k K. destruct (Nat.le_gt_cases k 48) as [L|L]; [|cbn; lia]. exfalso. apply K. clear K.
    apply last_index_none. intros c I. assert (J : In c (firstn 48 (tl after_gcc))).
    { rewrite <- (firstn_skipn k (firstn 48 (tl after_gcc))). apply in_or_app. left. rewrite firstn_firstn. now rewrite Nat.min_l by lia. }
    revert J. clear. cbn. intros H; decompose [or] H; subst; try contradiction; reflexivity.
  - unfold fits, pretty. rewrite !size_app. unfold reasonable in R. assert (0 <= size X) by (unfold size; lia). change (size before_gcc) with 52. change (size prefix_gnu) with 4. change (size (";"%char :: tl after_gcc)) with 50. change npos with 18446744073709551615. lia.
Qed.
Print Assumptions C72_gcc_partial.
(** clang: exactly those of at most 33. *)
Theorem C72_clang_partial : forall X, reasonable X -> type_name_gnu (pretty_clang X) = Done X <-> (length X <= 33)%nat.
Proof.
  intros X R. pose proof (extract_spec prefix_gnu suffixes_gnu before_clang [] "]"%char) as E.
  change (type_name_gnu (pretty_clang X)) with (extract prefix_gnu suffixes_gnu (pretty prefix_gnu before_clang [] "]"%char X)).
  rewrite E.
  - cbn. lia.
  - reflexivity.
  - cbn. intros x H; decompose [or] H; subst; try contradiction; reflexivity.
  - discriminate.
  - reflexivity.
  - intros k K. exfalso. apply K. now rewrite firstn_nil.
  - unfold fits, pretty. rewrite !size_app. unfold reasonable in R. assert (0 <= size X) by (unfold size; lia). change (size before_clang) with 37. change (size prefix_gnu) with 4. change (size ["]"%char]) with 1. change npos with 18446744073709551615. lia.
Qed.
Print Assumptions C72_clang_partial.

(** A longer name is returned with the end of the signature (when its start has neither ; nor ], which would cut it instead). *)
Theorem C72_long_refuted : forall X, reasonable X -> (48 < length X)%nat -> (forall x, In x (firstn 49 X) -> x <> ";"%char /\ x <> "]"%char) -> type_name_gnu (pretty_gcc X) = Done (X ++ after_gcc).
Proof.
  intros X R L N. change (type_name_gnu (pretty_gcc X)) with (extract prefix_gnu suffixes_gnu (pretty prefix_gnu before_gcc (tl after_gcc) ";"%char X)).
  apply extract_long.
  - cbn. intros x H; decompose [or] H; subst; try contradiction; reflexivity.
  - discriminate.
  - reflexivity.
  - unfold fits, pretty. rewrite !size_app. unfold reasonable in R. assert (0 <= size X) by (unfold size; lia). change (size before_gcc) with 52. change (size prefix_gnu) with 4. change (size (";"%char :: tl after_gcc)) with 50. change npos with 18446744073709551615. lia.
  - cbn. lia.
  - intros x I. destruct (N x I) as [N1 N2]. unfold one_of, suffixes_gnu. cbn [txt existsb String.list_ascii_of_string]. apply orb_false_iff. split; [now apply Ascii.eqb_neq|]. rewrite orb_false_r. now apply Ascii.eqb_neq.
Qed.
Print Assumptions C72_long_refuted.
(** MSVC: the names of at most 57 characters, without their class-key. *)
Theorem C72_msvc_partial : forall X, reasonable X -> (length X <= 57)%nat -> type_name_msvc (pretty_msvc X) = Done (strip msvc_prefixes X).
Proof.
  intros X R L. unfold type_name_msvc. assert (E : extract prefix_msvc suffixes_msvc (pretty_msvc X) = Done X); [|rewrite E; reflexivity].
  change (pretty_msvc X) with (pretty prefix_msvc before_msvc (tl after_msvc) ">"%char X). apply extract_spec.
  - reflexivity.
  - cbn. intros x H; decompose [or] H; subst; try contradiction; reflexivity.
  - discriminate.
  - reflexivity.
  - intros k K. exfalso. apply K. apply last_index_none. intros c I. assert (J : In c (tl after_msvc)) by (rewrite <- (firstn_skipn k (tl after_msvc)); apply in_or_app; now left).
    revert J. clear. cbn. intros H; decompose [or] H; subst; try contradiction; reflexivity.
  - unfold fits, pretty. rewrite !size_app. unfold reasonable in R. assert (0 <= size X) by (unfold size; lia). change (size before_msvc) with 74. change (size prefix_msvc) with 17. change (size (">"%char :: tl after_msvc)) with 7. change npos with 18446744073709551615. lia.
  - cbn. lia.
Qed.
Print Assumptions C72_msvc_partial.
(** Longer names with none of the characters that end a name come with the end of the signature; others are cut at the last such character near enough. *)
Local Ltac sizes := unfold fits, pretty; rewrite !size_app; match goal with R : reasonable ?X |- _ => unfold reasonable in R; assert (0 <= size X) by (unfold size; lia) end;
  change npos with 18446744073709551615; change (size before_gcc) with 52; change (size before_clang) with 37; change (size before_msvc) with 74; change (size prefix_gnu) with 4; change (size prefix_msvc) with 17;
  change (size (";"%char :: tl after_gcc)) with 50; change (size ["]"%char]) with 1; change (size (">"%char :: tl after_msvc)) with 7; rewrite ?size_app in *; lia.
Local Ltac letters := cbn; intros x H; decompose [or] H; subst; try contradiction; reflexivity.
Theorem C72_long_others_refuted : forall X, reasonable X ->
  ((33 < length X)%nat -> (forall x, In x (firstn 34 X) -> x <> ";"%char /\ x <> "]"%char) -> type_name_gnu (pretty_clang X) = Done (X ++ txt "]")) /\
  ((57 < length X)%nat -> (forall x, In x (firstn 58 X) -> x <> ">"%char) -> type_name_msvc (pretty_msvc X) = Done (strip msvc_prefixes (X ++ txt ">(void)"))).
Proof.
  intros X R. split; intros L N.
  - change (type_name_gnu (pretty_clang X)) with (extract prefix_gnu suffixes_gnu (pretty prefix_gnu before_clang [] "]"%char X)). apply extract_long; [letters|discriminate|reflexivity|sizes|cbn; lia|].
    intros x I. destruct (N x I) as [N1 N2]. unfold one_of, suffixes_gnu. cbn [txt existsb String.list_ascii_of_string]. apply orb_false_iff. split; [now apply Ascii.eqb_neq|]. rewrite orb_false_r. now apply Ascii.eqb_neq.
  - unfold type_name_msvc. change (pretty_msvc X) with (pretty prefix_msvc before_msvc (tl after_msvc) ">"%char X). rewrite extract_long; [reflexivity|letters|discriminate|reflexivity|sizes|cbn; lia|].
    intros x I. unfold one_of, suffixes_msvc. cbn [txt existsb String.list_ascii_of_string]. rewrite orb_false_r. apply Ascii.eqb_neq. now apply N.
Qed.
Print Assumptions C72_long_others_refuted.
Theorem C72_cut_refuted : forall A d B, let X := A ++ d :: B in reasonable X ->
  (d = ";"%char \/ d = "]"%char -> (length A <= 48 < length X)%nat -> (forall x, In x (firstn (48 - length A) B) -> x <> ";"%char /\ x <> "]"%char) -> type_name_gnu (pretty_gcc X) = Done A) /\
  (d = ";"%char \/ d = "]"%char -> (length A <= 33 < length X)%nat -> (forall x, In x (firstn (33 - length A) B) -> x <> ";"%char /\ x <> "]"%char) -> type_name_gnu (pretty_clang X) = Done A) /\
  (d = ">"%char -> (length A <= 57 < length X)%nat -> (forall x, In x (firstn (57 - length A) B) -> x <> ">"%char) -> type_name_msvc (pretty_msvc X) = Done (strip msvc_prefixes A)).
Proof.
  intros A d B X R. assert (Q : forall x, x <> ";"%char /\ x <> "]"%char -> one_of suffixes_gnu x = false).
  { intros x [N1 N2]. unfold one_of, suffixes_gnu. cbn [txt existsb String.list_ascii_of_string]. apply orb_false_iff. split; [now apply Ascii.eqb_neq|]. rewrite orb_false_r. now apply Ascii.eqb_neq. }
  split; [|split]; intros D L N.
  - change (type_name_gnu (pretty_gcc X)) with (extract prefix_gnu suffixes_gnu (pretty prefix_gnu before_gcc (tl after_gcc) ";"%char X)).
    apply extract_cut; [letters|discriminate|reflexivity|fold X; sizes|fold X; cbn; lia|destruct D; subst d; reflexivity|cbn; lia|].
    intros x I. apply Q, N. replace (48 - length A)%nat with (length before_gcc - length prefix_gnu - length A)%nat by reflexivity. exact I.
  - change (type_name_gnu (pretty_clang X)) with (extract prefix_gnu suffixes_gnu (pretty prefix_gnu before_clang [] "]"%char X)).
    apply extract_cut; [letters|discriminate|reflexivity|fold X; sizes|fold X; cbn; lia|destruct D; subst d; reflexivity|cbn; lia|].
    intros x I. apply Q, N. replace (33 - length A)%nat with (length before_clang - length prefix_gnu - length A)%nat by reflexivity. exact I.
  - unfold type_name_msvc. change (pretty_msvc X) with (pretty prefix_msvc before_msvc (tl after_msvc) ">"%char X). unfold X.
    rewrite extract_cut; [reflexivity|letters|discriminate|reflexivity|fold X; sizes|fold X; cbn; lia|subst d; reflexivity|cbn; lia|].
    intros x I. unfold one_of, suffixes_msvc. cbn [txt existsb String.list_ascii_of_string]. rewrite orb_false_r. apply Ascii.eqb_neq. apply N. exact I.
Qed.
Print Assumptions C72_cut_refuted.
Theorem C72_strip : forall N, strip msvc_prefixes (txt "class " ++ N) = N /\ strip msvc_prefixes (txt "struct " ++ N) = N /\ strip msvc_prefixes (txt "enum " ++ N) = N /\
  (Forall (fun p => starts p N = false) msvc_prefixes -> strip msvc_prefixes N = N).
Proof.
  intros N. repeat split. intros H. induction H as [|p l H _ IH]; cbn [strip]; [reflexivity|]. now rewrite H.
Qed.
Print Assumptions C72_strip.
(** A text without the prefix is rejected when compiling. *)
Lemma starts_prefix p : forall s, starts p s = true -> exists r, s = p ++ r.
Proof.
  induction p as [|x p IH]; intros s H; [now exists s|]. destruct s as [|y s]; [discriminate|]. cbn in H. apply andb_prop in H as (E & H). apply Ascii.eqb_eq in E. subst y.
  destruct (IH s H) as (r & ->). now exists r.
Qed.
Theorem C72_not_found : forall prefix suffixes s, (forall a b, s <> a ++ prefix ++ b) -> extract prefix suffixes s = Fault FAssert.
Proof.
  intros prefix suffixes s H. assert (E : first_index prefix s = None).
  { induction s as [|x s IH]; cbn [first_index].
    - destruct (starts prefix []) eqn:E; [|reflexivity]. destruct (starts_prefix _ _ E) as (r & R). destruct (H [] r R).
    - destruct (starts prefix (x :: s)) eqn:E; [destruct (starts_prefix _ _ E) as (r & R); destruct (H [] r R)|]. rewrite IH; [reflexivity|]. intros a b R. apply (H (x :: a) b). cbn. now rewrite <- R. }
  unfold extract, find. rewrite E. reflexivity.
Qed.
Print Assumptions C72_not_found.
Example C72_nonvacuous : type_name_gnu (pretty_gcc (txt "std::vector<int>")) = Done (txt "std::vector<int>") /\ type_name_msvc (pretty_msvc (txt "class Foo<int>")) = Done (txt "Foo<int>") /\
  type_name_gnu (pretty_clang (txt "int[3]")) = Done (txt "int[3]").
Proof. repeat split. Qed.
