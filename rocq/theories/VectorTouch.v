(** Which cells of the inline storage an operation reads or writes: replacing the cells before them, whatever they hold, changes nothing else. *)
From Verif Require Import Base CellModel VectorSpec VectorModel.
Open Scope nat_scope.

Definition omap {X Y} (f : X -> Y) (e : outcome X) : outcome Y := x <- e ;; Done (f x).

Lemma omap_bind {X X' Y Y'} (p : X -> X') (q : Y -> Y') (e : outcome X) (e' : outcome X') (f : X -> outcome Y) (f' : X' -> outcome Y') :
  e' = omap p e -> (forall x, e = Done x -> f' (p x) = omap q (f x)) -> bind e' f' = omap q (bind e f).
Proof. intros -> H. destruct e as [x|x]; [cbn; now apply H | reflexivity]. Qed.

Lemma foreach_omap {S T} (p : S -> T) l (f : S -> nat -> outcome S) (g : T -> nat -> outcome T) :
  (forall s i, In i l -> g (p s) i = omap p (f s i)) -> forall s, foreach l g (p s) = omap p (foreach l f s).
Proof.
  induction l as [|i l IH]; intros H s; cbn [foreach]; [reflexivity|].
  rewrite (H s i (or_introl eq_refl)). destruct (f s i) as [s'|x]; [|reflexivity]. cbn [omap bind]. apply IH. intros s0 j J. apply H. now right.
Qed.

Section Touch.
Context {A : Type}.
Implicit Types (m q : list (cell A)).

(** The first cells replaced by [q]. *)
Definition over q m : list (cell A) := q ++ skipn (length q) m.

Lemma over_nth q m i : length q <= length m -> length q <= i -> nth_error (over q m) i = nth_error m i.
Proof.
  intros L H. unfold over. rewrite nth_error_app2 by exact H. revert m i L H. induction q as [|x q IH]; intros m i L H; cbn [length skipn] in *.
  - now rewrite Nat.sub_0_r.
  - destruct m as [|y m]; cbn [length] in L; [lia|]. destruct i as [|i]; [lia|]. cbn [skipn nth_error]. rewrite <- (IH m i) by lia. reflexivity.
Qed.
Lemma over_upd q m i x : length q <= length m -> length q <= i -> over q (upd m i x) = upd (over q m) i x.
Proof.
  unfold over. revert m i. induction q as [|y q IH]; intros m i L H; cbn [length skipn app] in *; [reflexivity|].
  destruct m as [|z m]; cbn [length] in L; [lia|]. destruct i as [|i]; [lia|]. cbn [upd skipn]. f_equal. apply IH; lia.
Qed.
Lemma over_self q m : firstn (length q) m = q -> over q m = m.
Proof. intros H. unfold over. rewrite <- H at 1. apply firstn_skipn. Qed.
Lemma over_length q m : length q <= length m -> length (over q m) = length m.
Proof. intros H. unfold over. rewrite app_length, skipn_length. lia. Qed.

(** Operations on cells from [length q] on. *)
Definition ok q m i := length q <= length m /\ length q <= i.

Lemma construct_over q m i o : ok q m i -> construct (over q m) i o = omap (over q) (construct m i o).
Proof. intros [L H]. unfold construct. rewrite over_nth by assumption. destruct (nth_error m i) as [[|x]|]; try reflexivity. cbn. now rewrite over_upd. Qed.
Lemma destroy_over q m i : ok q m i -> destroy (over q m) i = omap (over q) (destroy m i).
Proof. intros [L H]. unfold destroy. rewrite over_nth by assumption. destruct (nth_error m i) as [[|x]|]; try reflexivity. cbn. now rewrite over_upd. Qed.
Lemma read_over q m i : ok q m i -> read (over q m) i = read m i.
Proof. intros [L H]. unfold read. now rewrite over_nth. Qed.
Lemma take_over q m i : ok q m i -> take (over q m) i = omap (fun '(o, m) => (o, over q m)) (take m i).
Proof. intros [L H]. unfold take. rewrite over_nth by assumption. destruct (nth_error m i) as [[|x]|]; try reflexivity. cbn. now rewrite over_upd. Qed.
Lemma assign_over q m i o : ok q m i -> assign (over q m) i o = omap (over q) (assign m i o).
Proof. intros [L H]. unfold assign. rewrite over_nth by assumption. destruct (nth_error m i) as [[|x]|]; try reflexivity. cbn. now rewrite over_upd. Qed.

(** They keep the number of cells. *)
Definition keeps (m : list (cell A)) (e : outcome (list (cell A))) : Prop := match e with Done m' => length m' = length m | Fault _ => True end.
Lemma construct_keeps m i o : keeps m (construct m i o).
Proof. unfold construct. destruct (nth_error m i) as [[|x]|]; cbn; try exact I. apply upd_length. Qed.
Lemma destroy_keeps m i : keeps m (destroy m i).
Proof. unfold destroy. destruct (nth_error m i) as [[|x]|]; cbn; try exact I. apply upd_length. Qed.
Lemma assign_keeps m i o : keeps m (assign m i o).
Proof. unfold assign. destruct (nth_error m i) as [[|x]|]; cbn; try exact I. apply upd_length. Qed.
Lemma take_keeps m i : match take m i with Done (_, m') => length m' = length m | Fault _ => True end.
Proof. unfold take. destruct (nth_error m i) as [[|x]|]; cbn; try exact I. apply upd_length. Qed.
Lemma move_cell_keeps m s d : keeps m (move_cell m s d).
Proof.
  unfold move_cell. pose proof (take_keeps m s) as T. destruct (take m s) as [[o m']|]; cbn; [|exact I].
  pose proof (assign_keeps m' d o) as Q. destruct (assign m' d o); cbn in *; [congruence | exact I].
Qed.
Lemma move_cell_over q m s d : ok q m s -> ok q m d -> move_cell (over q m) s d = omap (over q) (move_cell m s d).
Proof.
  intros S D. unfold move_cell. rewrite take_over by exact S. pose proof (take_keeps m s) as T. destruct (take m s) as [[o m']|]; [|reflexivity]. cbn [omap bind].
  apply assign_over. destruct D. unfold ok. split; congruence.
Qed.

(** Loops. *)
Lemma loop_over q (l : list nat) (f : list (cell A) -> nat -> outcome (list (cell A))) :
  (forall m i, keeps m (f m i)) -> (forall m i, In i l -> length q <= length m -> f (over q m) i = omap (over q) (f m i)) ->
  forall m, length q <= length m -> foreach l f (over q m) = omap (over q) (foreach l f m).
Proof.
  intros K. induction l as [|i l IH]; intros H m L; cbn [foreach]; [reflexivity|].
  rewrite (H m i (or_introl eq_refl) L). pose proof (K m i) as Km. destruct (f m i) as [m'|x]; [|reflexivity]. cbn [omap bind keeps] in *.
  apply IH; [|lia]. intros m0 j J. apply H. now right.
Qed.
Lemma loop_keeps (l : list nat) (f : list (cell A) -> nat -> outcome (list (cell A))) : (forall m i, keeps m (f m i)) -> forall m, keeps m (foreach l f m).
Proof.
  intros K. induction l as [|i l IH]; intros m; cbn [foreach]; [reflexivity|]. pose proof (K m i) as Km. destruct (f m i) as [m'|x]; [|exact I].
  cbn [bind keeps] in *. specialize (IH m'). destruct (foreach l f m'); cbn [keeps] in *; [congruence | exact I].
Qed.

Lemma move_forward_over q m s n d : length q <= length m -> length q <= s -> length q <= d -> move_forward (over q m) s n d = omap (over q) (move_forward m s n d).
Proof.
  intros L S D. unfold move_forward. apply loop_over; [intros; apply move_cell_keeps | | exact L].
  intros m0 i I0 L0. apply move_cell_over; unfold ok; lia.
Qed.
Lemma move_backward_over q m s n d : length q <= length m -> length q <= s -> length q <= d -> move_backward (over q m) s n d = omap (over q) (move_backward m s n d).
Proof.
  intros L S D. unfold move_backward. apply loop_over; [intros; apply move_cell_keeps | | exact L].
  intros m0 i I0 L0. apply move_cell_over; unfold ok; lia.
Qed.
Lemma destroy_range_over q m a b : length q <= length m -> length q <= a -> destroy_range (over q m) a b = omap (over q) (destroy_range m a b).
Proof.
  intros L S. unfold destroy_range. apply loop_over; [intros; apply destroy_keeps | | exact L].
  intros m0 i I0 L0. apply in_seq in I0. apply destroy_over; unfold ok; lia.
Qed.

(** ** Vectors in their inline storage *)
Definition sub q (v : fvec A) : fvec A := FV (m_size v) (over q (m_data v)) (fallback v).

(** The first [k] elements of a vector of [c] are not concerned. *)
Definition untouched (k c : nat) (o : vop A) : Prop :=
  match o with
  | PushCopy _ | PushMove _ | EmplaceBack _ => k <= c
  | Insert i _ | InsertMove i _ | Erase i | SetAt i _ => k <= i
  | EraseRange i j => k <= i \/ i = j
  | PopBack => k < c
  | Resize n | ResizeWith n _ => k <= n /\ k <= c
  | Reserve _ => True
  | Clear => k = 0
  end.
(** How many elements the operation asks room for. *)
Definition asks (c : nat) (o : vop A) : nat :=
  match o with
  | PushCopy _ | PushMove _ | EmplaceBack _ | Insert _ _ | InsertMove _ _ => c + 1
  | Resize n | ResizeWith n _ | Reserve n => n
  | _ => 0
  end.

Variables (has : bool) (cap : nat) (dflt : A).

Lemma sub_using q (v : fvec A) c : m_size v = Count c -> IsUsingFallback has (sub q v) = false.
Proof. intros H. unfold IsUsingFallback, sub. cbn [m_size]. rewrite H. apply Bool.andb_false_r. Qed.
Lemma not_spilled (v : fvec A) c : m_size v = Count c -> IsUsingFallback has v = false.
Proof. intros H. unfold IsUsingFallback. rewrite H. apply Bool.andb_false_r. Qed.

Lemma grow_inline (v : fvec A) c : m_size v = Count c -> has = false \/ c + 1 <= cap -> CheckFallbackOnGrow has cap v = Done (v, false).
Proof.
  intros H C. unfold CheckFallbackOnGrow, count. rewrite (not_spilled v c H), H. destruct has; [|reflexivity].
  destruct (Nat.leb_spec cap c); [destruct C; [discriminate | lia] | reflexivity].
Qed.

Definition outside (x : arg A) : Prop := match x with OwnElement _ => False | _ => True end.
Lemma fetch_outside (v v' : fvec A) x : outside x -> fetch v' (resolve has v x) = fetch v (resolve has v x).
Proof. destruct x; cbn; intros []; reflexivity. Qed.
Lemma resolve_sub q v x : outside x -> resolve has (sub q v) x = resolve has v x.
Proof. destruct x; cbn; intros []; reflexivity. Qed.


Lemma push_over q v c x : m_size v = Count c -> outside x -> has = false \/ c + 1 <= cap -> length q <= length (m_data v) -> length q <= c ->
  fv_push_back has cap (sub q v) x = omap (fun '(v, b) => (sub q v, b)) (fv_push_back has cap v x).
Proof.
  intros H O C L K. unfold fv_push_back. rewrite (grow_inline v c H C), (grow_inline (sub q v) c H C). cbn [bind]. rewrite (resolve_sub q v x O).
  unfold count. cbn [sub m_size m_data fallback]. rewrite H. destruct (c <? cap); cbn [assert bind]; [|reflexivity].
  rewrite (fetch_outside v (sub q v) x O). destruct (fetch v (resolve has v x)) as [y|]; cbn [bind]; [|reflexivity].
  rewrite construct_over by (split; assumption). destruct (construct (m_data v) c y) as [m|]; reflexivity.
Qed.
Lemma emplace_back_over q v c x : m_size v = Count c -> outside x -> has = false \/ c + 1 <= cap -> length q <= length (m_data v) -> length q <= c ->
  fv_emplace_back has cap (sub q v) x = omap (fun '(v, b) => (sub q v, b)) (fv_emplace_back has cap v x).
Proof.
  intros H O C L K. unfold fv_emplace_back. rewrite (grow_inline v c H C), (grow_inline (sub q v) c H C). cbn [bind]. rewrite (resolve_sub q v x O).
  unfold count. cbn [sub m_size m_data fallback]. rewrite H. destruct (c <? cap); cbn [assert bind]; [|reflexivity].
  rewrite (fetch_outside v (sub q v) x O). destruct (fetch v (resolve has v x)) as [y|]; cbn [bind]; [|reflexivity].
  rewrite construct_over by (split; assumption). destruct (construct (m_data v) c y) as [m|]; reflexivity.
Qed.

Lemma size_inline (v : fvec A) c : m_size v = Count c -> fv_size has v = c.
Proof. intros H. unfold fv_size, count. now rewrite (not_spilled v c H), H. Qed.

Lemma emplace_over q v c i x : m_size v = Count c -> outside x -> has = false \/ c + 1 <= cap -> length q <= length (m_data v) -> length q <= i ->
  fv_emplace has cap (sub q v) i x = omap (fun '(v, r, b) => (sub q v, r, b)) (fv_emplace has cap v i x).
Proof.
  intros H O C L K. unfold fv_emplace. rewrite (size_inline v c H), (size_inline (sub q v) c H).
  destruct (Nat.leb_spec i c) as [Hi|Hi]; cbn [assert bind]; [|reflexivity]. cbv zeta.
  rewrite (grow_inline v c H C), (grow_inline (sub q v) c H C). cbn [bind]. rewrite (resolve_sub q v x O).
  unfold count. cbn [sub m_size m_data fallback]. rewrite H. destruct (c <? cap); cbn [assert bind]; [|reflexivity].
  destruct (Nat.ltb_spec i c) as [Hc|Hc].
  - rewrite take_over by (unfold ok; lia). pose proof (take_keeps (m_data v) (c - 1)) as T. destruct (take (m_data v) (c - 1)) as [[o m]|]; cbn [omap bind]; [|reflexivity].
    rewrite construct_over by (unfold ok; lia). pose proof (construct_keeps m c o) as T2. destruct (construct m c o) as [m2|]; cbn [omap bind keeps] in *; [|reflexivity].
    assert (B : (if i <? c - 1 then move_backward (over q m2) i (c - 1 - i) (i + 1) else Done (over q m2)) = omap (over q) (if i <? c - 1 then move_backward m2 i (c - 1 - i) (i + 1) else Done m2)).
    { destruct (i <? c - 1); [|reflexivity]. apply move_backward_over; lia. }
    rewrite B. assert (K3 : keeps m2 (if i <? c - 1 then move_backward m2 i (c - 1 - i) (i + 1) else Done m2)).
    { destruct (i <? c - 1); [|reflexivity]. apply loop_keeps. intros. apply move_cell_keeps. }
    destruct (if i <? c - 1 then move_backward m2 i (c - 1 - i) (i + 1) else Done m2) as [m3|]; cbn [omap bind keeps] in *; [|reflexivity].
    rewrite destroy_over by (unfold ok; lia). pose proof (destroy_keeps m3 i) as T4. destruct (destroy m3 i) as [m4|]; cbn [omap bind keeps] in *; [|reflexivity].
    rewrite (fetch_outside (FV (Count c) m4 (fallback v)) (FV (Count c) (over q m4) (fallback v)) x O) || idtac.
    assert (F : fetch (FV (Count c) (over q m4) (fallback v)) (resolve has v x) = fetch (FV (Count c) m4 (fallback v)) (resolve has v x)) by (destruct x; cbn in *; [reflexivity | reflexivity | destruct O]).
    rewrite F. destruct (fetch (FV (Count c) m4 (fallback v)) (resolve has v x)) as [y|]; cbn [omap bind m_data]; [|reflexivity].
    rewrite construct_over by (unfold ok; lia). destruct (construct m4 i y); reflexivity.
  - cbn [bind m_data]. rewrite (fetch_outside v (sub q v) x O) || idtac.
    assert (F : fetch (FV (Count c) (over q (m_data v)) (fallback v)) (resolve has v x) = fetch v (resolve has v x)) by (destruct x; cbn in *; [reflexivity | reflexivity | destruct O]).
    cbn [sub m_size]. rewrite ?H. rewrite ?F. destruct (fetch v (resolve has v x)) as [y|]; cbn [omap bind m_data]; [|reflexivity].
    change (m_data (sub q v)) with (over q (m_data v)). rewrite construct_over by (unfold ok; lia). destruct (construct (m_data v) i y); cbn [omap bind]; rewrite ?H; reflexivity.
Qed.

Lemma pop_over q v c : m_size v = Count c -> length q <= length (m_data v) -> length q < c -> fv_pop_back has (sub q v) = omap (sub q) (fv_pop_back has v).
Proof.
  intros H L K. unfold fv_pop_back. rewrite (not_spilled v c H), (sub_using q v c H). unfold fv_empty. rewrite (not_spilled v c H), (sub_using q v c H). unfold count.
  cbn [sub m_size m_data fallback]. rewrite H. destruct (negb (c =? 0)); cbn [assert bind]; [|reflexivity].
  rewrite destroy_over by (unfold ok; lia). destruct (destroy (m_data v) (c - 1)); reflexivity.
Qed.

Lemma resize_over q v c n x : m_size v = Count c -> outside x -> has = false \/ n <= cap -> length q <= length (m_data v) -> length q <= n -> length q <= c ->
  fv_resize_with has cap (sub q v) n x = omap (sub q) (fv_resize_with has cap v n x).
Proof.
  intros H O C L K K'. unfold fv_resize_with. rewrite (not_spilled v c H), (sub_using q v c H), (resolve_sub q v x O). unfold count.
  assert (S : has && (cap <? n) = false) by (destruct has; [|reflexivity]; destruct (Nat.ltb_spec cap n); [destruct C; [discriminate | lia] | reflexivity]).
  rewrite S. cbn [sub m_size m_data fallback]. rewrite H. destruct (n <=? cap); cbn [assert bind]; [|reflexivity].
  destruct (Nat.ltb_spec c n).
  - set (f := fun m i => _). assert (F : foreach (range c n) f (over q (m_data v)) = omap (over q) (foreach (range c n) f (m_data v))).
    { apply loop_over; [| |exact L].
      - intros m i. unfold f. destruct (fetch _ _) as [y|]; [|exact I]. cbn [bind]. apply construct_keeps.
      - intros m i Ii Lm. apply in_seq in Ii. unfold f.
        assert (E : fetch (FV (Count c) (over q m) (fallback v)) (resolve has v x) = fetch (FV (Count c) m (fallback v)) (resolve has v x)) by (destruct x; cbn in *; [reflexivity | reflexivity | destruct O]).
        rewrite E. clear E. destruct (fetch _ _) as [y|]; [|reflexivity]. cbn [bind]. apply construct_over. unfold ok. lia. }
    rewrite F. destruct (foreach (range c n) f (m_data v)); reflexivity.
  - destruct (Nat.ltb_spec n c).
    + rewrite destroy_range_over by assumption. destruct (destroy_range (m_data v) n c); reflexivity.
    + cbn [omap bind]. unfold sub. now rewrite H.
Qed.

Lemma erase_over q v c i : m_size v = Count c -> length q <= length (m_data v) -> length q <= i ->
  fv_erase has (sub q v) i = omap (fun '(v, r) => (sub q v, r)) (fv_erase has v i).
Proof.
  intros H L K. unfold fv_erase. rewrite (size_inline v c H), (size_inline (sub q v) c H).
  destruct (Nat.ltb_spec i c) as [Hi|Hi]; cbn [assert bind]; [|reflexivity]. cbv zeta. rewrite (not_spilled v c H), (sub_using q v c H). unfold count.
  cbn [sub m_size m_data fallback]. rewrite H. rewrite move_forward_over by lia.
  assert (K1 : keeps (m_data v) (move_forward (m_data v) (i + 1) (c - (i + 1)) i)) by (apply loop_keeps; intros; apply move_cell_keeps).
  destruct (move_forward (m_data v) (i + 1) (c - (i + 1)) i) as [m|]; cbn [omap bind keeps] in *; [|reflexivity].
  pose proof (pop_over q (FV (Count c) m (fallback v)) c eq_refl) as P. cbn [m_data sub m_size fallback] in P. unfold sub in P at 1. cbn [m_data m_size fallback] in P. rewrite P by lia.
  destruct (fv_pop_back has (FV (Count c) m (fallback v))); reflexivity.
Qed.

Lemma erase_range_over q v c i j : m_size v = Count c -> c <= cap -> length q <= length (m_data v) -> length q <= i \/ i = j ->
  fv_erase_range has cap dflt (sub q v) i j = omap (fun '(v, r) => (sub q v, r)) (fv_erase_range has cap dflt v i j).
Proof.
  intros H CC L K. unfold fv_erase_range. rewrite (not_spilled v c H), (sub_using q v c H). cbv zeta.
  destruct (Nat.eqb_spec i j) as [E|E]; [reflexivity|]. rewrite (size_inline v c H), (size_inline (sub q v) c H).
  destruct (Nat.ltb_spec i j); cbn [assert bind]; [|reflexivity]. destruct (Nat.leb_spec j c); cbn [assert bind]; [|reflexivity]. unfold count.
  cbn [sub m_size m_data fallback]. rewrite H. rewrite move_forward_over by lia.
  assert (K1 : keeps (m_data v) (move_forward (m_data v) (i + (j - i)) (c - (i + (j - i))) i)) by (apply loop_keeps; intros; apply move_cell_keeps).
  destruct (move_forward (m_data v) (i + (j - i)) (c - (i + (j - i))) i) as [m|]; cbn [omap bind keeps] in *; [|reflexivity].
  unfold fv_resize. pose proof (resize_over q (FV (Count c) m (fallback v)) c (c - (j - i)) (ByCopy dflt) eq_refl Logic.I) as P.
  cbn [m_data] in P. unfold sub in P at 1. cbn [m_data m_size fallback] in P. rewrite P by (try right; lia).
  destruct (fv_resize_with has cap (FV (Count c) m (fallback v)) (c - (j - i)) (ByCopy dflt)); reflexivity.
Qed.

(** ** Every operation *)
Lemma apply_over q v c o : m_size v = Count c -> c <= cap -> length q <= length (m_data v) -> untouched (length q) c o -> has = false \/ asks c o <= cap ->
  fv_apply has cap dflt (sub q v) o = omap (fun '(v, r) => (sub q v, r)) (fv_apply has cap dflt v o).
Proof.
  intros H CC L U C. destruct o as [a|a|a|i a|i a|i|i j| |n|n a|n| |i a]; cbn [fv_apply untouched asks] in *.
  - rewrite (push_over q v c) by (auto; exact Logic.I). destruct (fv_push_back has cap v (ByCopy a)) as [[v' b]|]; reflexivity.
  - rewrite (push_over q v c) by (auto; exact Logic.I). destruct (fv_push_back has cap v (ByMove a)) as [[v' b]|]; reflexivity.
  - rewrite (emplace_back_over q v c) by (auto; exact Logic.I). destruct (fv_emplace_back has cap v (ByCopy a)) as [[v' b]|]; reflexivity.
  - unfold fv_insert. rewrite (emplace_over q v c) by (auto; exact Logic.I). destruct (fv_emplace has cap v i (ByCopy a)) as [[[v' r] b]|]; reflexivity.
  - unfold fv_insert. rewrite (emplace_over q v c) by (auto; exact Logic.I). destruct (fv_emplace has cap v i (ByMove a)) as [[[v' r] b]|]; reflexivity.
  - rewrite (erase_over q v c) by auto. destruct (fv_erase has v i) as [[v' r]|]; reflexivity.
  - rewrite (erase_range_over q v c) by auto. destruct (fv_erase_range has cap dflt v i j) as [[v' r]|]; reflexivity.
  - rewrite (pop_over q v c) by auto. destruct (fv_pop_back has v); reflexivity.
  - unfold fv_resize. rewrite (resize_over q v c) by (tauto || exact Logic.I). destruct (fv_resize_with has cap v n (ByCopy dflt)); reflexivity.
  - rewrite (resize_over q v c) by (tauto || exact Logic.I). destruct (fv_resize_with has cap v n (ByCopy a)); reflexivity.
  - unfold fv_reserve. rewrite (not_spilled v c H), (sub_using q v c H). destruct (Nat.leb_spec n cap) as [E|E]; [destruct has; reflexivity|].
    destruct C as [->|C]; [reflexivity | lia].
  - destruct q; [|discriminate U]. unfold sub, over. cbn [length app skipn]. destruct v as [s d f]. cbn [m_size m_data fallback].
    destruct (fv_clear has (FV s d f)) as [v'|]; [|reflexivity]. cbn [bind omap]. unfold sub, over. cbn [length app skipn]. now destruct v'.
  - unfold fv_set, fv_store. rewrite (not_spilled v c H), (sub_using q v c H), (size_inline v c H), (size_inline (sub q v) c H).
    destruct (i <? c); cbn [assert bind]; [|reflexivity]. cbn [sub m_data m_size fallback].
    rewrite assign_over by (split; assumption). destruct (assign (m_data v) i (Some a)); reflexivity.
Qed.
End Touch.
