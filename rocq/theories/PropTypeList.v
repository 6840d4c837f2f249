(** Property C71: TypeList. *)
From Verif Require Import Base CInt MathProofs TypeListModel.
Open Scope nat_scope.

Section Props.
  Context {T : Type} (same : T -> T -> bool) (same_spec : forall x y, same x y = true <-> x = y).
  (** Lists of types shorter than 2^64 - 1, as any program has. *)
  Definition short (l : list T) : Prop := (Z.of_nat (length l) < npos)%Z.

  Lemma same_false x y : same x y = false <-> x <> y.
  Proof. rewrite <- same_spec. destruct (same x y); intuition congruence. Qed.
  Lemma find_spec t l : forall i, (0 <= i)%Z -> (i + Z.of_nat (length l) < npos)%Z ->
    (exists k, Find same i t l = (i + Z.of_nat k)%Z /\ nth_error l k = Some t /\ forall j, j < k -> nth_error l j <> Some t) \/ (Find same i t l = npos /\ ~ In t l).
  Proof.
    induction l as [|x l IH]; intros i I L; [right; split; [reflexivity|intros []]|]. cbn [Find].
    destruct (same t x) eqn:E.
    - left. exists 0. apply same_spec in E. subst. split; [lia|]. split; [reflexivity|]. intros j Hj. lia.
    - apply same_false in E. cbn [length] in L. assert (C : cast u64 (i + 1) = (i + 1)%Z) by (apply cast_id; [reflexivity|]; unfold in_range, npos in *; cbn in *; lia).
      rewrite C. destruct (IH (i + 1)%Z ltac:(lia) ltac:(lia)) as [(k & K1 & K2 & K3)|(K1 & K2)].
      + left. exists (S k). split; [rewrite K1; lia|]. split; [exact K2|]. intros [|j] Hj; cbn [nth_error]; [congruence|]. apply K3. lia.
      + right. split; [exact K1|]. intros [->|H]; [congruence|contradiction].
  Qed.
  Lemma has_spec l t : short l -> TypeListHas same l t = true <-> In t l.
  Proof.
    intros S. unfold TypeListHas, ListFind. destruct (find_spec t l 0 ltac:(lia) ltac:(unfold short in S; lia)) as [(k & K1 & K2 & _)|(K1 & K2)]; rewrite K1.
    - pose proof (nth_error_In _ _ K2). assert (k < length l) by (apply nth_error_Some; congruence). unfold short in S. split; [tauto|]. intros _.
      destruct (Z.eqb_spec (0 + Z.of_nat k) npos); [lia|reflexivity].
    - rewrite Z.eqb_refl. cbn. split; [discriminate|tauto].
  Qed.
  Lemma without_spec l t : forall acc, ListRebuildWithout same acc l t = acc ++ filter (fun x => negb (same x t)) l.
  Proof.
    induction l as [|x l IH]; intros acc; cbn [ListRebuildWithout filter]; [now rewrite app_nil_r|]. rewrite IH. destruct (negb (same x t)); [|reflexivity].
    rewrite <- app_assoc. reflexivity.
  Qed.
  (** First occurrences, in order: an element stays iff it is not among those before it. *)
  Fixpoint firsts (before l : list T) : list T :=
    match l with [] => [] | x :: r => if existsb (same x) before then firsts before r else x :: firsts (before ++ [x]) r end.
  Lemma unique_spec l : forall acc, (Z.of_nat (length acc + length l) < npos)%Z -> l <> [] -> ListUnique same acc l = Some (acc ++ firsts acc l).
  Proof.
    assert (X : forall acc x, (Z.of_nat (length acc) < npos)%Z -> TypeListHas same acc x = existsb (same x) acc).
    { intros acc x S. apply eq_true_iff_eq. rewrite (has_spec acc x S), existsb_exists. split; [intros H; exists x; split; [exact H|now apply same_spec] | intros (y & Y1 & Y2); apply same_spec in Y2; now subst]. }
    induction l as [|x l IH]; intros acc L N; [congruence|]. cbn [ListUnique firsts length] in *. unfold unique1. rewrite X by lia.
    destruct l as [|y l].
    - cbn [firsts]. destruct (existsb (same x) acc); cbn [negb]; [now rewrite app_nil_r|reflexivity].
    - destruct (existsb (same x) acc) eqn:E; cbn [negb]; rewrite IH; try discriminate.
      + reflexivity.
      + cbn [length] in *. lia.
      + now rewrite <- app_assoc.
      + rewrite app_length. cbn [length] in *. lia.
  Qed.
End Props.

(** *** C71 *)
Definition decides {T} (same : T -> T -> bool) : Prop := forall x y, same x y = true <-> x = y.
(** The index of the first occurrence, or the largest std::size_t. *)
Theorem C71_find : forall (T : Type) (same : T -> T -> bool) l t, decides same -> short l ->
  (In t l /\ exists k, ListFind same l t = Z.of_nat k /\ nth_error l k = Some t /\ forall j, j < k -> nth_error l j <> Some t) \/ (~ In t l /\ ListFind same l t = tmax u64).
Proof.
  intros T same l t D S. unfold ListFind. destruct (find_spec same D t l 0 ltac:(lia) ltac:(unfold short in S; lia)) as [(k & K1 & K2 & K3)|(K1 & K2)]; [left|right; auto].
  split; [exact (nth_error_In _ _ K2)|]. exists k. split; [rewrite K1; lia|auto].
Qed.
Print Assumptions C71_find.
Theorem C71_has : forall (T : Type) (same : T -> T -> bool) l t, decides same -> short l -> TypeListHas same l t = true <-> In t l.
Proof. intros T same l t D S. now apply has_spec. Qed.
Print Assumptions C71_has.
(** All the occurrences are removed; the others stay in order. *)
Theorem C71_remove : forall (T : Type) (same : T -> T -> bool) l t, decides same ->
  ~ In t (TypeListRemove same l t) /\ (forall l1 l2, TypeListRemove same (l1 ++ l2) t = TypeListRemove same l1 t ++ TypeListRemove same l2 t) /\
  TypeListRemove same [t] t = [] /\ forall x, x <> t -> TypeListRemove same [x] t = [x].
Proof.
  intros T same l t D. unfold TypeListRemove. split; [|split; [|split]].
  - rewrite without_spec. cbn [app]. intros H. apply filter_In in H as [_ H]. rewrite (proj2 (D t t) eq_refl) in H. discriminate.
  - intros l1 l2. rewrite !without_spec. cbn [app]. apply filter_app.
  - rewrite without_spec. cbn. now rewrite (proj2 (D t t) eq_refl).
  - intros x N. rewrite without_spec. cbn. rewrite (proj2 (same_false same D x t) N). reflexivity.
Qed.
Print Assumptions C71_remove.
(** TypeListUnique keeps the first occurrences in order: it has no duplicate, the same types, and removing a later duplicate changes nothing. *)
Theorem C71_unique : forall (T : Type) (same : T -> T -> bool) l, decides same -> short l -> exists u, TypeListUnique same l = Some u /\
  NoDup u /\ (forall t, In t u <-> In t l) /\ (* in order: *) exists keep : nat -> bool, u = map snd (filter (fun p => keep (fst p)) (combine (seq 0 (length l)) l)) /\
  forall i, i < length l -> keep i = true <-> forall j, j < i -> nth_error l j <> nth_error l i.
Proof.
  intros T same l D S.
  assert (U : TypeListUnique same l = Some (firsts same [] l)).
  { destruct l as [|x l]; [reflexivity|]. unfold TypeListUnique. rewrite (unique_spec same D); [reflexivity | exact S | discriminate]. }
  rewrite U. eexists. split; [reflexivity|].
  assert (IN : forall l acc t, In t (firsts same acc l) <-> In t l /\ ~ In t acc).
  { clear -D. intros l. induction l as [|x l IH]; intros acc t; cbn [firsts]; [cbn; tauto|].
    assert (X : existsb (same x) acc = true <-> In x acc) by (rewrite existsb_exists; split; [intros (y & Y1 & Y2); apply D in Y2; now subst | intros H; exists x; split; [exact H|now apply D]]).
    destruct (existsb (same x) acc).
    - rewrite IH. cbn [In]. split; [tauto|]. intros [[->|H] N]; [tauto|auto].
    - cbn [In]. rewrite IH, in_app_iff. cbn [In]. assert (NX : ~ In x acc) by (rewrite <- X; discriminate).
      split; [intros [->|[H N]]; tauto|]. intros [[H|H] N]; [auto|]. destruct (same x t) eqn:E; [left; now apply D|]. right. split; [exact H|].
      intros [F|[F|[]]]; [tauto|]. apply D in F. congruence. }
  split; [|split].
  - generalize (@nil T). induction l as [|x l IH]; intros acc; cbn [firsts]; [constructor|].
    assert (SL : short l) by (unfold short in *; cbn [length] in S; lia).
    assert (IHl : forall acc, NoDup (firsts same acc l)).
    { clear -IN D. induction l as [|x l IH]; intros acc; cbn [firsts]; [constructor|]. destruct (existsb (same x) acc); [apply IH|]. constructor; [|apply IH].
      rewrite IN. intros [_ N]. apply N. apply in_or_app. cbn. auto. }
    destruct (existsb (same x) acc); [apply IHl|]. constructor; [|apply IHl]. rewrite IN. intros [_ N]. apply N. apply in_or_app. cbn. auto.
  - intros t. rewrite IN. cbn. tauto.
  - exists (fun i => match nth_error l i with Some x => negb (existsb (same x) (firstn i l)) | None => false end). split.
    + (* generalise over the prefix *)
      assert (G : forall l pre acc, (forall t, In t acc <-> In t pre) ->
        firsts same acc l = map snd (filter (fun p => match nth_error (pre ++ l) (fst p) with Some x => negb (existsb (same x) (firstn (fst p) (pre ++ l))) | None => false end) (combine (seq (length pre) (length l)) l))).
      { clear -D. intros l. induction l as [|x l IH]; intros pre acc A; [reflexivity|]. cbn [firsts length seq combine filter fst].
        rewrite nth_error_app2, Nat.sub_diag by lia. cbn [nth_error]. rewrite firstn_app, Nat.sub_diag, firstn_all. cbn [firstn]. rewrite app_nil_r.
        assert (X : existsb (same x) acc = existsb (same x) pre).
        { apply eq_true_iff_eq. rewrite !existsb_exists. split; intros (y & Y1 & Y2); exists y; (split; [now apply A|exact Y2]). }
        rewrite X. assert (LE : S (length pre) = length (pre ++ [x])) by (rewrite app_length; cbn; lia).
        assert (AP : pre ++ x :: l = (pre ++ [x]) ++ l) by (now rewrite <- app_assoc). destruct (existsb (same x) pre) eqn:E; cbn [negb].
        - rewrite AP, LE. apply IH. intros t. rewrite in_app_iff. cbn [In]. rewrite A. apply existsb_exists in E as (y & Y1 & Y2). apply D in Y2. subst y. split; [auto|]. intros [H|[->|[]]]; assumption.
        - cbn [map snd]. f_equal. rewrite AP, LE. apply IH. intros t. rewrite !in_app_iff, A. tauto. }
      rewrite (G l [] []) by tauto. reflexivity.
    + intros i I. destruct (nth_error l i) as [x|] eqn:E; [|apply nth_error_None in E; lia].
      rewrite negb_true_iff. split.
      * intros F j J K. rewrite <- not_true_iff_false in F. apply F. apply existsb_exists. exists x. split; [|now apply D].
        apply (nth_error_In _ j). rewrite <- (firstn_skipn i l), nth_error_app1 in K by (rewrite firstn_length; lia). exact K.
      * intros F. apply not_true_iff_false. intros K. apply existsb_exists in K as (y & Y1 & Y2). apply D in Y2. subst y.
        apply In_nth_error in Y1 as [j J]. assert (L : j < i). { assert (j < length (firstn i l)) by (apply nth_error_Some; congruence). rewrite firstn_length in *. lia. }
        apply (F j L). rewrite <- (firstn_skipn i l) at 1. rewrite nth_error_app1 by (apply nth_error_Some; congruence). exact J.
Qed.
Print Assumptions C71_unique.
(** Indexing, inside and outside of the list. *)
Theorem C71_at : forall (T : Type) (l : list T) i, ListAt l i = nth_error l i.
Proof.
  intros T l. induction l as [|x l IH]; intros [|i]; cbn [ListAt nth_error]; try reflexivity.
  rewrite IH. destruct (Nat.leb_spec (S i) (length l)); [reflexivity|]. symmetry. apply nth_error_None. lia.
Qed.
Print Assumptions C71_at.
(** Append, Prepend, Concat, Transform, Instantiate, Size and Empty, by what the results contain. *)
Theorem C71_build : forall (T U : Type) (l l' : list T) t (f : T -> U) i,
  nth_error (ListAppend l t) i = (if i =? length l then Some t else nth_error l i) /\
  nth_error (ListPrepend l t) i = (match i with O => Some t | S j => nth_error l j end) /\
  nth_error (ListConcat l l') i = (if i <? length l then nth_error l i else nth_error l' (i - length l)) /\
  nth_error (ListTransform l f) i = option_map f (nth_error l i) /\
  (forall C (Class : list T -> C), ListInstantiate l Class = Class l) /\ (TypeListEmpty l = true <-> l = []).
Proof.
  intros T U l l' t f i. unfold ListAppend, ListPrepend, ListConcat, ListTransform, ListInstantiate, TypeListEmpty, ListSize.
  split; [|split; [now destruct i|split; [|split; [apply nth_error_map|split; [reflexivity|]]]]].
  - destruct (Nat.eqb_spec i (length l)) as [->|N]; [rewrite nth_error_app2, Nat.sub_diag by lia; reflexivity|].
    destruct (Nat.lt_ge_cases i (length l)); [now apply nth_error_app1|]. rewrite (proj2 (nth_error_None l i)) by lia. apply nth_error_None. rewrite app_length. cbn. lia.
  - destruct (Nat.ltb_spec i (length l)); [now apply nth_error_app1 | now apply nth_error_app2].
  - destruct l; cbn; [tauto|]. split; discriminate.
Qed.
Print Assumptions C71_build.
(** TypeListApply runs the functor of each type once, in order, stopping only at a fault. *)
Theorem C71_apply : forall (T S : Type) (F : T -> S -> outcome S) l s,
  TypeListApply F l s = fold_left (fun o t => s <- o ;; F t s) l (Done s).
Proof.
  intros T S F l s. unfold TypeListApply.
  assert (G : forall l s, ListApply F l s = fold_left (fun o t => s <- o ;; F t s) l (Done s)).
  { clear l s. intros l. induction l as [|t l IH]; intros s; cbn [ListApply fold_left]; [reflexivity|]. cbn [bind]. destruct (F t s) as [s'|f]; cbn [bind].
    - destruct l as [|t' l]; [reflexivity|]. cbn [length]. apply IH.
    - clear. induction l as [|t l IH]; [reflexivity|exact IH]. }
  destruct l as [|t l]; [reflexivity|]. exact (G (t :: l) s).
Qed.
Print Assumptions C71_apply.
(** The arguments are forwarded to every functor: from the second one on, an rvalue argument that the functors take by value is moved from. *)
Theorem C71_apply_rvalue : forall (T A : Type) (moved : A -> A) l (a : A),
  let F := fun (t : T) (s : A * list A) => Done (moved (fst s), snd s ++ [fst s]) in
  TypeListApply F l (a, []) = Done (Nat.iter (length l) moved a, map (fun i => Nat.iter i moved a) (seq 0 (length l))).
Proof.
  intros T A moved l a F. rewrite C71_apply. rewrite <- (rev_involutive l), rev_length. induction (rev l) as [|t r IH]; [reflexivity|].
  cbn [rev]. rewrite fold_left_app. cbn [fold_left]. rewrite IH. cbn [bind length]. unfold F. cbn [fst snd]. rewrite seq_S, map_app. reflexivity.
Qed.
Print Assumptions C71_apply_rvalue.
Example C71_nonvacuous :
  ListFind Nat.eqb [5; 6; 7; 6] 6 = 1%Z /\ ListFind Nat.eqb [5] 6 = 18446744073709551615%Z /\ TypeListRemove Nat.eqb [5; 6; 7; 6] 6 = [5; 7] /\
  TypeListUnique Nat.eqb [5; 6; 5; 7; 6; 5] = Some [5; 6; 7] /\ ListAt [5; 6] 1 = Some 6 /\ ListAt [5; 6] 2 = None /\
  TypeListApply (fun t s => Done (s ++ [t])) [1; 2; 3] [] = Done [1; 2; 3].
Proof. repeat split. Qed.
