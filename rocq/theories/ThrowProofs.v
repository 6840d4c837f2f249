(** Lemmas about the throwing vectors: which cells are alive, and agreement with the model in which nothing throws. *)
From Verif Require Import CellModel CellProofs ThrowModel.

Section Live.
Context {A : Type}.
Implicit Types m : list (cell A).

Definition alive (c : cell A) : bool := match c with Obj _ => true | Raw => false end.
Definition live m := map alive m.

Lemma live_length m : length (live m) = length m.
Proof. apply map_length. Qed.

Lemma live_split m n r : live m = repeat true n ++ r -> exists q m', m = map Obj q ++ m' /\ length q = n /\ live m' = r.
Proof.
  revert m. induction n as [|n IH]; intros m E; cbn [repeat app] in E.
  - exists [], m. now repeat split.
  - destruct m as [|[|o] m]; try discriminate. injection E as E. destruct (IH m E) as (q & m' & -> & L & R). exists (o :: q), m'. now rewrite <- L.
Qed.

Lemma live_raw m n : live m = repeat false n -> m = repeat Raw n.
Proof.
  revert m. induction n as [|n IH]; intros m E; destruct m as [|[|o] m]; try discriminate; [reflexivity|].
  injection E as E. cbn [repeat]. f_equal. now apply IH.
Qed.

Lemma live_obj (q : list (option A)) : live (map Obj q) = repeat true (length q).
Proof. induction q; [reflexivity|]. cbn [map live length repeat]. f_equal. exact IHq. Qed.
Lemma live_repeat n : live (repeat Raw n) = repeat false n.
Proof. unfold live. induction n; [reflexivity|]. cbn. now f_equal. Qed.

Lemma live_upd m i c : live (upd m i c) = upd (live m) i (alive c).
Proof. revert i. induction m as [|x m IH]; intros [|i]; cbn; try reflexivity. f_equal. apply IH. Qed.

Lemma upd_same {B} (l : list B) i x : nth_error l i = Some x -> upd l i x = l.
Proof. revert i. induction l as [|y l IH]; intros [|i]; cbn; try discriminate; intros E; [now injection E as ->|]. f_equal. auto. Qed.

Lemma nth_live m i : nth_error (live m) i = option_map alive (nth_error m i).
Proof. apply nth_error_map. Qed.

Lemma take_live m i : nth_error (live m) i = Some true -> exists o, take m i = Done (o, upd m i (Obj None)) /\ live (upd m i (Obj None)) = live m.
Proof.
  rewrite nth_live. unfold take. destruct (nth_error m i) as [[|o]|] eqn:E; try discriminate. intros _. exists o. split; [reflexivity|].
  rewrite live_upd. apply upd_same. now rewrite nth_live, E.
Qed.
Lemma assign_live m i o : nth_error (live m) i = Some true -> assign m i o = Done (upd m i (Obj o)) /\ live (upd m i (Obj o)) = live m.
Proof.
  rewrite nth_live. unfold assign. destruct (nth_error m i) as [[|o']|] eqn:E; try discriminate. intros _. split; [reflexivity|].
  rewrite live_upd. apply upd_same. now rewrite nth_live, E.
Qed.
Lemma construct_live m i o : nth_error (live m) i = Some false -> construct m i o = Done (upd m i (Obj o)).
Proof. rewrite nth_live. unfold construct. destruct (nth_error m i) as [[|o']|] eqn:E; try discriminate. reflexivity. Qed.
Lemma destroy_live m i : nth_error (live m) i = Some true -> destroy m i = Done (upd m i Raw).
Proof. rewrite nth_live. unfold destroy. destruct (nth_error m i) as [[|o']|] eqn:E; try discriminate. reflexivity. Qed.

(** The destructor's loop. *)
Lemma final_good m n r : live m = repeat true n ++ r -> exists m', destroy_range m 0 n = Done m' /\ live m' = repeat false n ++ r.
Proof.
  intros E. destruct (live_split m n r E) as (q & m' & -> & <- & <-). exists (repeat Raw (length q) ++ m'). split.
  - exact (destroy_range_spec q [] m' 0 (length q) eq_refl eq_refl).
  - unfold live. rewrite map_app. f_equal. apply live_repeat.
Qed.

Lemma destroy_range_bad m : forall a b i, a <= i < b -> nth_error (live m) i = Some false -> destroy_range m a b = Fault FUB.
Proof.
  intros a b i H E. unfold destroy_range. remember (i - a) as d. revert m a H E Heqd. induction d as [|d IH]; intros m a H E Hd.
  - replace a with i by lia. replace b with (i + Datatypes.S (b - i - 1)) by lia. rewrite foreach_range_S. unfold destroy.
    rewrite nth_live in E. destruct (nth_error m i) as [[|o]|]; try discriminate. reflexivity.
  - replace b with (a + Datatypes.S (b - a - 1)) by lia. rewrite foreach_range_S. unfold destroy at 1. destruct (nth_error m a) as [[|o]|] eqn:F; try reflexivity.
    cbn [bind]. replace (a + 1 + (b - a - 1)) with b by lia. apply IH; [lia| |lia]. rewrite live_upd. rewrite nth_error_upd. now replace (i =? a) with false by lia.
Qed.
End Live.

Section Steps.
Context {A : Type}.
Implicit Types s : tst A.

(** Moving between two live objects: everything stays alive, whether it throws or not. *)
Lemma move_assign_live nm src dst s : nth_error (live (t_cells s)) src = Some true -> nth_error (live (t_cells s)) dst = Some true ->
  match t_move_assign nm src dst s with
  | Val _ s' => live (t_cells s') = live (t_cells s) /\ t_size s' = t_size s /\ t_left s = (if nm then 0 else 1) + t_left s'
  | Thrown s' => nm = false /\ t_left s = 0 /\ t_left s' = 0 /\ live (t_cells s') = live (t_cells s) /\ t_size s' = t_size s
  | Bad _ => False
  end.
Proof.
  intros H1 H2. unfold t_move_assign. destruct (take_live _ _ H1) as (o & -> & L).
  match goal with |- context [assign _ dst ?x] => destruct (assign_live (upd (t_cells s) src (Obj None)) dst x) as (-> & L2) end; [now rewrite L|].
  rewrite L in L2. destruct nm; cbn [t_cells t_size t_left]; [tauto|]. destruct (t_left s) eqn:E; cbn [t_cells t_size t_left]; tauto.
Qed.

Lemma loop_live nm f g l : forall s, (forall k, In k l -> nth_error (live (t_cells s)) (f k) = Some true /\ nth_error (live (t_cells s)) (g k) = Some true) ->
  match tloop l (fun k => t_move_assign nm (f k) (g k)) s with
  | Val _ s' => live (t_cells s') = live (t_cells s) /\ t_size s' = t_size s /\ t_left s = (if nm then 0 else length l) + t_left s'
  | Thrown s' => nm = false /\ t_left s < length l /\ t_left s' = 0 /\ live (t_cells s') = live (t_cells s) /\ t_size s' = t_size s
  | Bad _ => False
  end.
Proof.
  induction l as [|k l IH]; intros s H; cbn [tloop].
  - repeat split; try reflexivity; now destruct nm.
  - destruct (H k (or_introl eq_refl)) as (H1 & H2). pose proof (move_assign_live nm _ _ s H1 H2) as M.
    destruct (t_move_assign nm (f k) (g k) s) as [b s1|s1|]; cbn [tbind]; [|destruct M as (? & ? & ? & ? & ?); repeat split; try assumption; cbn [length]; lia|exact M].
    destruct M as (M1 & M2 & M3). specialize (IH s1). rewrite M1 in IH. specialize (IH (fun k Hk => H k (or_intror Hk))).
    destruct (tloop l _ s1) as [b' s2|s2|]; [| |exact IH].
    + destruct IH as (I1 & I2 & I3). repeat split; try congruence. cbn [length]. destruct nm; lia.
    + destruct IH as (I1 & I2 & I3 & I4 & I5). subst nm. repeat split; try congruence. cbn [length]. lia.
Qed.

(** Without a throw, the steps are those of CellModel. *)
Lemma move_assign_val nm src dst s b s' : t_move_assign nm src dst s = Val b s' -> move_cell (t_cells s) src dst = Done (t_cells s').
Proof.
  unfold t_move_assign, move_cell. destruct (take (t_cells s) src) as [[o m]|]; [|discriminate]. cbn [bind].
  destruct nm; [|destruct (t_left s)]; (destruct (assign m dst _); [|discriminate]); intros E; inversion E; reflexivity.
Qed.
Lemma loop_val nm f g l : forall s b s', tloop l (fun k => t_move_assign nm (f k) (g k)) s = Val b s' ->
  foreach l (fun m k => move_cell m (f k) (g k)) (t_cells s) = Done (t_cells s').
Proof.
  induction l as [|k l IH]; intros s b s' E; cbn [tloop foreach] in *; [now inversion E|].
  destruct (t_move_assign nm (f k) (g k) s) as [b1 s1|s1|] eqn:M; try discriminate. cbn [tbind] in E. rewrite (move_assign_val _ _ _ _ _ _ M). cbn [bind]. exact (IH _ _ _ E).
Qed.
Lemma move_assign_size nm src dst s b s' : t_move_assign nm src dst s = Val b s' -> t_size s' = t_size s.
Proof.
  unfold t_move_assign. destruct (take (t_cells s) src) as [[o m]|]; [|discriminate].
  destruct nm; [|destruct (t_left s)]; (destruct (assign m dst _); [|discriminate]); intros E; inversion E; reflexivity.
Qed.
Lemma loop_size nm f g l : forall s b s', tloop l (fun k => t_move_assign nm (f k) (g k)) s = Val b s' -> t_size s' = t_size s.
Proof.
  induction l as [|k l IH]; intros s b s' E; cbn [tloop] in *; [now inversion E|].
  destruct (t_move_assign nm (f k) (g k) s) as [b1 s1|s1|] eqn:M; try discriminate. cbn [tbind] in E. rewrite (IH _ _ _ E). now apply move_assign_size in M.
Qed.
Lemma destroy_loop l : forall s, tloop l t_destroy s = match foreach l destroy (t_cells s) with Done m => Val tt (TS m (t_size s) (t_left s)) | Fault f => Bad f end.
Proof.
  induction l as [|k l IH]; intros [m n k0]; cbn [tloop foreach]; [reflexivity|]. unfold t_destroy, tpure at 1. cbn [t_cells t_size t_left].
  destruct (destroy m k) as [m'|]; cbn [tbind bind]; [|reflexivity]. rewrite IH. reflexivity.
Qed.

(** Constructing n elements at the end of the live ones. *)
Lemma construct_loop (a : A) n : forall p r a0 s, t_cells s = p ++ repeat Raw n ++ r -> a0 = length p ->
  tloop (range a0 (a0 + n)) (fun i => t_construct i a) s =
    if n <=? t_left s then Val tt (TS (p ++ map Obj (repeat (Some a) n) ++ r) (t_size s) (t_left s - n))
    else Thrown (TS (p ++ map Obj (repeat (Some a) (t_left s)) ++ repeat Raw (n - t_left s) ++ r) (t_size s) 0).
Proof.
  induction n as [|n IH]; intros p r a0 [m sz k] E ->; cbn [t_cells t_size t_left] in *.
  - rewrite Nat.add_0_r, Nat.sub_0_r. unfold range. rewrite Nat.sub_diag. cbn [seq tloop Nat.leb repeat map app] in *. now rewrite E.
  - unfold range. replace (length p + S n - length p) with (S n) by lia. cbn [seq tloop]. unfold t_construct at 1. cbn [t_cells t_size t_left]. subst m.
    cbn [repeat app]. rewrite construct_mid by reflexivity. destruct k as [|k]; cbn [tbind]; [reflexivity|].
    specialize (IH (p ++ [Obj (Some a)]) r (S (length p)) (TS (p ++ Obj (Some a) :: repeat Raw n ++ r) sz k)). cbn [t_cells t_size t_left] in IH.
    replace (range (S (length p)) (S (length p) + n)) with (seq (S (length p)) n) in IH by (unfold range; f_equal; lia).
    rewrite IH; [|now rewrite <- app_assoc|rewrite app_length; cbn; lia].
    cbn [Nat.leb Nat.sub]. destruct (n <=? k); cbn [repeat map app]; now rewrite <- !app_assoc.
Qed.
End Steps.
