(** Proofs about StringModel.v: the hash map and the Unicode conversions. *)
From Coq Require Import Permutation.
From Verif Require Import Base CInt StringModel.
Open Scope Z_scope.

Lemma same_spec a b : same a b = true <-> a = b.
Proof.
  revert b; induction a as [|x a IH]; intros [|y b]; cbn; split; intros H; try discriminate; try reflexivity.
  - apply andb_prop in H as (H1 & H2). f_equal; [lia | now apply IH].
  - injection H as -> ->. rewrite Z.eqb_refl. now apply IH.
Qed.

(** ** C strings *)
Lemma traits_length_spec t r : ~ In 0 t -> traits_length (t ++ 0 :: r) = Done (length t).
Proof.
  induction t as [|c t IH]; intros H; cbn; [reflexivity|].
  destruct (Z.eqb_spec c 0) as [->|]; [exfalso; apply H; now left|]. rewrite IH; [reflexivity|]. intros X; apply H; now right.
Qed.
Lemma traits_length_none l : ~ In 0 l -> traits_length l = Fault FUB.
Proof.
  induction l as [|c l IH]; intros H; cbn; [reflexivity|].
  destruct (Z.eqb_spec c 0) as [->|]; [exfalso; apply H; now left|]. rewrite IH; [reflexivity|]. intros X; apply H; now right.
Qed.
Lemma zero_split (l : list Z) : In 0 l -> exists t r, l = t ++ 0 :: r /\ ~ In 0 t.
Proof.
  induction l as [|c l IH]; [intros []|]. intros H. destruct (Z.eqb_spec c 0) as [->|N].
  - exists [], l. split; [reflexivity | tauto].
  - destruct H as [H|H]; [congruence|]. destruct (IH H) as (t & r & -> & X). exists (c :: t), r. split; [reflexivity|].
    intros [Y|Y]; [congruence | tauto].
Qed.
Lemma traits_length_inv l n : traits_length l = Done n -> exists t r, l = t ++ 0 :: r /\ ~ In 0 t /\ n = length t.
Proof.
  intros H. destruct (in_dec Z.eq_dec 0 l) as [I|I].
  - destruct (zero_split l I) as (t & r & -> & X). rewrite (traits_length_spec t r X) in H. injection H as <-. eauto.
  - rewrite traits_length_none in H by assumption. discriminate.
Qed.

(** ** Flat association lists *)
Section Map.
  Context (hash : list Z -> Z) {V : Type}.
  Notation umap := (@umap V).

  Definition represents (l : list (list Z * V)) (f : list Z -> option V) : Prop :=
    NoDup (map fst l) /\ forall s v, In (s, v) l <-> f s = Some v.

  Lemma represents_perm l l' f : Permutation l l' -> represents l f -> represents l' f.
  Proof.
    intros P (N & H). split.
    - eapply Permutation_NoDup; [apply Permutation_map, P | exact N].
    - intros s v. rewrite <- H. split; apply Permutation_in; [now apply Permutation_sym | exact P].
  Qed.
  Lemma represents_ext l f g : (forall s, f s = g s) -> represents l f -> represents l g.
  Proof. intros E (N & H). split; [exact N|]. intros s v. now rewrite H, E. Qed.
  Lemma key_unique (l : list (list Z * V)) s v w : NoDup (map fst l) -> In (s, v) l -> In (s, w) l -> v = w.
  Proof.
    induction l as [|[a x] l IH]; [intros _ []|]. cbn. intros N [E|I] [E'|I'].
    - congruence.
    - inversion N as [|? ? X]; subst. injection E as -> ->. elim X. apply in_map_iff. now exists (s, w).
    - inversion N as [|? ? X]; subst. injection E' as -> ->. elim X. apply in_map_iff. now exists (s, v).
    - inversion N; subst. now apply IH.
  Qed.
  Definition put (f : list Z -> option V) (s : list Z) (o : option V) : list Z -> option V :=
    fun t => if same t s then o else f t.

  Lemma represents_add a b f s v : represents (a ++ b) f -> (forall v, ~ In (s, v) (a ++ b)) -> represents (a ++ (s, v) :: b) (put f s (Some v)).
  Proof.
    intros R F. apply represents_perm with (l := (s, v) :: a ++ b); [apply Permutation_middle|].
    destruct R as (N & H). split.
    - cbn. constructor; [|exact N]. intros I. apply in_map_iff in I as ([s' w] & E & I). cbn in E. subst. now apply (F w).
    - intros t w. unfold put. cbn [In]. destruct (same t s) eqn:E.
      + apply same_spec in E. subst. split; [intros [X|X]; [congruence | now elim (F w)] | intros X; left; congruence].
      + rewrite <- H. split; [intros [X|X]; [injection X as -> ->|exact X] | now right].
        rewrite (proj2 (same_spec t t) eq_refl) in E. discriminate.
  Qed.
  Lemma represents_drop a b f s v : represents (a ++ (s, v) :: b) f -> represents (a ++ b) (put f s None).
  Proof.
    intros R. apply represents_perm with (l' := (s, v) :: a ++ b) in R; [|apply Permutation_sym, Permutation_middle].
    destruct R as (N & H). cbn in N. inversion N as [|? ? X N']; subst. split; [exact N'|].
    intros t w. unfold put. destruct (same t s) eqn:E.
    - apply same_spec in E. subst. split; [|discriminate]. intros I. elim X. apply in_map_iff. now exists (s, w).
    - rewrite <- H. cbn [In]. split; [now right|]. intros [Y|Y]; [|exact Y]. injection Y as -> ->.
      rewrite (proj2 (same_spec t t) eq_refl) in E. discriminate.
  Qed.
  Lemma represents_set a b f s v w : represents (a ++ (s, v) :: b) f -> represents (a ++ (s, w) :: b) (put f s (Some w)).
  Proof.
    intros R. pose proof (represents_drop a b f s v R) as D.
    apply represents_ext with (f := put (put f s None) s (Some w)); [intros t; unfold put; now destruct (same t s)|].
    apply represents_add; [exact D|]. intros u I. apply (proj2 D) in I. unfold put in I. rewrite (proj2 (same_spec s s) eq_refl) in I. discriminate.
  Qed.

  (** ** Buckets *)
  Definition placed (m : umap) : Prop := forall b c s v, nth_error m b = Some c -> In (s, v) c -> b = bucket m (hash s).
  Definition good (m : umap) (f : list Z -> option V) : Prop := placed m /\ represents (concat m) f.

  Lemma bucket_lt (m : umap) h : m <> [] -> (bucket m h < length m)%nat.
  Proof.
    intros H. unfold bucket. destruct m as [|c m]; [congruence|]. pose proof (Z.mod_pos_bound h (Z.of_nat (length (c :: m)))).
    cbn [length] in *. lia.
  Qed.
  Lemma bucket_length (m m' : umap) h : length m = length m' -> bucket m h = bucket m' h.
  Proof. intros E. unfold bucket. now rewrite E. Qed.

  Lemma search_spec c k t : key_view k = Done t ->
    exists r, search (V := V) c k = Done r /\
      match r with Some i => exists v, nth_error c i = Some (t, v) | None => forall v, ~ In (t, v) c end.
  Proof.
    intros K. induction c as [|[s w] c IH]; cbn.
    - exists None. split; [reflexivity | tauto].
    - unfold equal_to. rewrite K. cbn. destruct (same s t) eqn:E.
      + apply same_spec in E. subst. exists (Some 0%nat). split; [reflexivity|]. now exists w.
      + destruct IH as (r & -> & H). cbn. exists (option_map S r). split; [reflexivity|]. destruct r as [i|]; cbn; [exact H|].
        intros v [X|X]; [|now apply (H v)]. injection X as -> ->. rewrite (proj2 (same_spec t t) eq_refl) in E. discriminate.
  Qed.

  Lemma in_buckets (m : umap) e : In e (concat m) <-> exists b c, nth_error m b = Some c /\ In e c.
  Proof.
    rewrite in_concat. split.
    - intros (c & I & J). apply In_nth_error in I as (b & I). eauto.
    - intros (b & c & I & J). exists c. split; [now apply nth_error_In in I | exact J].
  Qed.

  Lemma find_spec m k t : placed m -> key_view k = Done t ->
    exists r, umap_find hash m k = Done r /\
      match r with
      | Some it => exists v, entry m it = Done (t, v) /\ fst it = bucket m (hash t)
      | None => forall v, ~ In (t, v) (concat m)
      end.
  Proof.
    intros P K. unfold umap_find. destruct m as [|c0 m0] eqn:Em.
    - rewrite K. cbn. exists None. split; [reflexivity | tauto].
    - rewrite <- Em in *. assert (Hm : m <> []) by (subst; discriminate). clear c0 m0 Em.
      unfold StringHash. rewrite K. cbn [bind]. set (b := bucket m (hash t)).
      pose proof (bucket_lt m (hash t) Hm) as L. fold b in L.
      destruct (nth_error m b) as [c|] eqn:Eb; [|apply nth_error_None in Eb; lia].
      rewrite (nth_error_nth m b [] Eb). destruct (search_spec c k t K) as (r & -> & H). cbn [bind].
      exists (option_map (pair b) r). split; [reflexivity|]. destruct r as [i|]; cbn [option_map].
      + destruct H as (v & H). exists v. unfold entry, vget. cbn [fst snd]. rewrite Eb. cbn [bind]. rewrite H. split; reflexivity.
      + intros v I. apply in_buckets in I as (b' & c' & Eb' & I). pose proof (P b' c' t v Eb' I) as X.
        rewrite X in Eb'. fold b in Eb'. assert (c' = c) by congruence. subst c'. now apply (H v).
  Qed.

  Lemma upd_split {A} (l1 : list A) x l2 y : upd (l1 ++ x :: l2) (length l1) y = l1 ++ y :: l2.
  Proof. induction l1; cbn; congruence. Qed.
  Lemma entry_split (m : umap) b i e : entry m (b, i) = Done e ->
    exists m1 c1 c2 m2, m = m1 ++ (c1 ++ e :: c2) :: m2 /\ length m1 = b /\ length c1 = i.
  Proof.
    unfold entry, vget. cbn [fst snd]. destruct (nth_error m b) as [c|] eqn:E1; [|discriminate]. cbn [bind].
    destruct (nth_error c i) as [e'|] eqn:E2; [|discriminate]. intros X; injection X as ->.
    apply nth_error_split in E1 as (m1 & m2 & -> & L1). apply nth_error_split in E2 as (c1 & c2 & -> & L2).
    exists m1, c1, c2, m2. auto.
  Qed.
  Lemma nth_error_mid {A} (l1 : list A) x l2 : nth_error (l1 ++ x :: l2) (length l1) = Some x.
  Proof. rewrite nth_error_app2, Nat.sub_diag by lia. reflexivity. Qed.

  Lemma placed_update m1 c c' m2 :
    placed (m1 ++ c :: m2) -> (forall s v, In (s, v) c' -> (exists w, In (s, w) c) \/ length m1 = bucket (m1 ++ c :: m2) (hash s)) ->
    placed (m1 ++ c' :: m2).
  Proof.
    intros P H b d s v E I.
    rewrite (bucket_length _ (m1 ++ c :: m2)) by (rewrite !app_length; reflexivity).
    destruct (Nat.eq_dec b (length m1)) as [->|N].
    - rewrite nth_error_mid in E. injection E as <-. destruct (H s v I) as [(w & J)|J]; [|exact J].
      apply (P (length m1) c s w); [apply nth_error_mid | exact J].
    - apply (P b d s v); [|exact I]. rewrite <- E. destruct (Nat.lt_ge_cases b (length m1)) as [L|L].
      + now rewrite !nth_error_app1 by lia.
      + rewrite !nth_error_app2 by lia. destruct (b - length m1)%nat eqn:D; [lia|]. reflexivity.
  Qed.

  Lemma set_entry_spec m f b i t v w : good m f -> entry m (b, i) = Done (t, v) ->
    exists m', set_entry m (b, i) w = Done m' /\ good m' (put f t (Some w)) /\ length m' = length m.
  Proof.
    intros (P & R) E. destruct (entry_split m b i _ E) as (m1 & c1 & c2 & m2 & -> & Hb & Hi).
    exists (m1 ++ (c1 ++ (t, w) :: c2) :: m2). split; [|split].
    - unfold set_entry, vget, vset. cbn [fst snd]. rewrite <- Hb, nth_error_mid. cbn [bind]. rewrite <- Hi, nth_error_mid. cbn [bind fst].
      rewrite app_length. cbn [length]. replace (length c1 <? length c1 + S (length c2))%nat with true by (symmetry; apply Nat.ltb_lt; lia).
      cbn [bind]. rewrite upd_split. rewrite app_length. cbn [length].
      replace (length m1 <? length m1 + S (length m2))%nat with true by (symmetry; apply Nat.ltb_lt; lia). now rewrite upd_split.
    - split.
      + eapply placed_update; [exact P|]. intros s x I. left. apply in_app_iff in I as [I|[I|I]].
        * exists x. apply in_app_iff. now left.
        * injection I as <- <-. exists v. apply in_app_iff. right. now left.
        * exists x. apply in_app_iff. right. now right.
      + rewrite concat_app in *. cbn [concat] in *. rewrite <- app_assoc in *. cbn [app] in *. rewrite app_assoc in *.
        eapply represents_set. exact R.
    - rewrite !app_length. reflexivity.
  Qed.
  Lemma place_spec m f s v : m <> [] -> good m f -> (forall v, ~ In (s, v) (concat m)) -> good (place hash m s v) (put f s (Some v)).
  Proof.
    intros Hm (P & R) F. unfold place. pose proof (bucket_lt m (hash s) Hm) as L.
    destruct (nth_error m (bucket m (hash s))) as [c|] eqn:E; [|apply nth_error_None in E; lia].
    rewrite (nth_error_nth m _ [] E). pose proof E as E'. apply nth_error_split in E' as (m1 & m2 & X & Y).
    rewrite X at 1. rewrite <- Y, upd_split. rewrite X in P, R, F. split.
    - eapply placed_update; [exact P|]. intros t w [I|I].
      + injection I as <- <-. right. rewrite Y, X at 1. reflexivity.
      + left. eauto.
    - rewrite concat_app in *. cbn [concat app] in *. now apply represents_add.
  Qed.
  Lemma good_empty n : good (repeat [] n) (fun _ => None).
  Proof.
    assert (C : concat (repeat (@nil (list Z * V)) n) = []) by (induction n; cbn; auto).
    split; [|split].
    - intros b c s v E I. apply nth_error_In, repeat_spec in E. subst. destruct I.
    - rewrite C. constructor.
    - rewrite C. intros s v. split; [intros [] | discriminate].
  Qed.
  Lemma place_length m s v : length (place hash m s v : umap) = length m.
  Proof. unfold place. generalize (bucket m (hash s)) as b. generalize ((s, v) :: nth (bucket m (hash s)) m []) as c. induction m; intros c [|b]; cbn; auto. Qed.

  Lemma rehash_spec m f n : (0 < n)%nat -> good m f -> good (rehash hash m n) f /\ length (rehash hash m n) = n.
  Proof.
    intros Hn (_ & R). unfold rehash.
    assert (X : forall (l done : list (list Z * V)) (q : umap), length q = n -> represents (done ++ l) f ->
      (exists g, good q g /\ forall s v, In (s, v) (concat q) <-> In (s, v) done) ->
      let q' := fold_left (fun m e => place hash m (fst e) (snd e)) l q in
      length q' = n /\ exists g, good q' g /\ forall s v, In (s, v) (concat q') <-> In (s, v) (done ++ l)).
    { induction l as [|[s v] l IH]; intros done q L RR (g & G & S); cbn [fold_left].
      - split; [exact L|]. exists g. now rewrite app_nil_r.
      - cbn [fst snd]. assert (Q : q <> []) by (destruct q; cbn in L; [lia | discriminate]).
        assert (F : forall v, ~ In (s, v) (concat q)).
        { intros w I. apply S in I. apply (in_map fst) in I. cbn in I. destruct RR as (N & _).
          rewrite map_app in N. cbn in N. apply NoDup_remove_2 in N. apply N. apply in_app_iff. now left. }
        pose proof (place_spec q g s v Q G F) as G'.
        replace (done ++ (s, v) :: l) with ((done ++ [(s, v)]) ++ l) in * by (rewrite <- app_assoc; reflexivity).
        apply IH; [now rewrite place_length | exact RR |]. exists (put g s (Some v)). split; [exact G'|].
        intros t w. rewrite (proj2 (proj2 G')). unfold put. rewrite in_app_iff. cbn [In]. rewrite <- S, (proj2 (proj2 G)).
        destruct (same t s) eqn:E.
        + apply same_spec in E. subst t. split; [intros Y; right; left; congruence|]. intros [Y|[Y|[]]]; [|congruence].
          exfalso. apply (proj2 (proj2 G)) in Y. now apply F in Y.
        + split; [now left|]. intros [Y|[Y|[]]]; [exact Y|]. injection Y as -> ->. rewrite (proj2 (same_spec t t) eq_refl) in E. discriminate. }
    destruct (X (concat m) [] (repeat [] n)) as (L & g & G & S).
    - apply repeat_length.
    - exact R.
    - exists (fun _ => None). split; [apply good_empty|]. intros s v. split; [|intros []]. intros I. now apply (proj2 (proj2 (good_empty n))) in I.
    - split; [|exact L]. destruct G as (P & N & H). split; [exact P|]. split; [exact N|]. intros s v. rewrite S. cbn [app]. apply (proj2 R).
  Qed.
  Lemma erase_spec m f k t : good m f -> key_view k = Done t ->
    exists m', umap_erase hash m k = Done m' /\ good m' (put f t None) /\ length m' = length m.
  Proof.
    intros (P & R) K. destruct (find_spec m k t P K) as (r & E & H). unfold umap_erase. rewrite E. cbn [bind]. destruct r as [[b i]|].
    - destruct H as (v & H & _). destruct (entry_split m b i _ H) as (m1 & c1 & c2 & m2 & -> & Hb & Hi).
      exists (m1 ++ (c1 ++ c2) :: m2). split; [|split].
      + unfold vget, vset. rewrite <- Hb, nth_error_mid. cbn [bind]. rewrite app_length. cbn [length].
        replace (length m1 <? length m1 + S (length m2))%nat with true by (symmetry; apply Nat.ltb_lt; lia). rewrite upd_split.
        rewrite <- Hi. rewrite firstn_app, firstn_all, Nat.sub_diag. cbn [firstn]. rewrite app_nil_r.
        replace (S (length c1)) with (length (c1 ++ [(t, v)])) by (rewrite app_length; cbn; lia).
        replace (c1 ++ (t, v) :: c2) with ((c1 ++ [(t, v)]) ++ c2) by (rewrite <- app_assoc; reflexivity).
        now rewrite skipn_app, skipn_all, Nat.sub_diag.
      + split.
        * eapply placed_update; [exact P|]. intros s x I. left. exists x. apply in_app_iff in I as [I|I]; apply in_app_iff; [now left | right; now right].
        * rewrite concat_app in *. cbn [concat] in *. rewrite <- app_assoc in *. cbn [app] in *. rewrite app_assoc in *.
          eapply represents_drop. exact R.
      + rewrite !app_length. reflexivity.
    - exists m. split; [reflexivity|]. split; [|reflexivity]. split; [exact P|]. apply represents_ext with (f := f); [|exact R].
      intros s. unfold put. destruct (same s t) eqn:X; [|reflexivity]. apply same_spec in X. subst.
      destruct (f t) as [v|] eqn:Y; [|reflexivity]. apply (proj2 R) in Y. now apply H in Y.
  Qed.
  Lemma assign_spec grow m f s v : good m f -> match grow with Some n => (0 < n)%nat | None => m <> [] end ->
    exists m', umap_assign hash grow m s v = Done m' /\ good m' (put f s (Some v)).
  Proof.
    intros G Hg. destruct (find_spec m (KString s) s (proj1 G) eq_refl) as (r & E & H). unfold umap_assign. rewrite E. cbn [bind].
    destruct r as [[b i]|].
    - destruct H as (w & H & _). destruct (set_entry_spec m f b i s w v G H) as (m' & -> & G' & _). eauto.
    - set (q := match grow with Some n => rehash hash m n | None => m end).
      assert (Q : good q f /\ q <> []).
      { subst q. destruct grow as [n|]; [|now split]. destruct (rehash_spec m f n Hg G) as (G' & L). split; [exact G'|].
        intros X. rewrite X in L. cbn in L. lia. }
      destruct Q as (Q & Q'). cbn zeta. replace (0 <? length q)%nat with true; [|symmetry; apply Nat.ltb_lt; destruct q; [congruence | cbn; lia]].
      cbn [require bind]. eexists. split; [reflexivity|]. apply place_spec; trivial. intros w I. apply (proj2 (proj2 Q)) in I.
      apply (proj2 (proj2 G)) in I. now apply H in I.
  Qed.
End Map.
