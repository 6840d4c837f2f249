(** Lemmas about raw storage. *)
From Verif Require Import CellModel.

Lemma nth_error_mid {A} (p r : list A) x i : i = length p -> nth_error (p ++ x :: r) i = Some x.
Proof. intros ->. rewrite nth_error_app2 by lia. now rewrite Nat.sub_diag. Qed.

Lemma upd_mid {A} (p r : list A) x y i : i = length p -> upd (p ++ x :: r) i y = p ++ y :: r.
Proof. intros ->. rewrite upd_app, Nat.ltb_irrefl, Nat.sub_diag. reflexivity. Qed.

Lemma foreach_shift {S} (f : S -> nat -> outcome S) a b n s : foreach (seq (a + b) n) f s = foreach (seq b n) (fun s k => f s (a + k)) s.
Proof.
  revert b s. induction n as [|n IH]; intros b s; simpl; [reflexivity|]. destruct (f s (a + b)) as [s'|]; simpl; [|reflexivity].
  replace (Datatypes.S (a + b)) with (a + Datatypes.S b) by lia. apply IH.
Qed.

Lemma foreach_map {S} (f : S -> nat -> outcome S) g l s : foreach (map g l) f s = foreach l (fun s k => f s (g k)) s.
Proof. revert s. induction l as [|x l IH]; intros s; simpl; [reflexivity|]. destruct (f s (g x)); simpl; auto. Qed.

Lemma foreach_ext {S} (f g : S -> nat -> outcome S) l s : (forall s k, In k l -> f s k = g s k) -> foreach l f s = foreach l g s.
Proof.
  revert s. induction l as [|x l IH]; intros s H; simpl; [reflexivity|]. rewrite H by (now left). destruct (g s x); simpl; [|reflexivity].
  apply IH. intros; apply H. now right.
Qed.

Lemma foreach_range_S {S} (f : S -> nat -> outcome S) a n s : foreach (range a (a + Datatypes.S n)) f s = bind (f s a) (foreach (range (a + 1) (a + 1 + n)) f).
Proof. unfold range. replace (a + Datatypes.S n - a) with (Datatypes.S n) by lia. replace (a + 1 + n - (a + 1)) with n by lia. simpl. now rewrite Nat.add_1_r. Qed.

Lemma foreach_range_0 {S} (f : S -> nat -> outcome S) a b s : b <= a -> foreach (range a b) f s = Done s.
Proof. intros H. unfold range. replace (b - a) with 0 by lia. reflexivity. Qed.

Section Cells.
Context {A : Type}.
Implicit Types (p r m : list (cell A)) (q : list (option A)).

Lemma construct_mid p r o i : i = length p -> construct (p ++ Raw :: r) i o = Done (p ++ Obj o :: r).
Proof. intros H. unfold construct. now rewrite nth_error_mid, upd_mid. Qed.

Lemma destroy_mid p r o i : i = length p -> destroy (p ++ Obj o :: r) i = Done (p ++ Raw :: r).
Proof. intros H. unfold destroy. now rewrite nth_error_mid, upd_mid. Qed.

Lemma read_mid p r o i : i = length p -> read (p ++ Obj o :: r) i = Done o.
Proof. intros H. unfold read. now rewrite nth_error_mid. Qed.

Lemma read_raw p r i : i = length p -> read (p ++ Raw :: r) i = Fault FUB.
Proof. intros H. unfold read. now rewrite nth_error_mid. Qed.

Lemma take_mid p r o i : i = length p -> take (p ++ Obj o :: r) i = Done (o, p ++ Obj None :: r).
Proof. intros H. unfold take. now rewrite nth_error_mid, upd_mid. Qed.

Lemma assign_mid p r o o' i : i = length p -> assign (p ++ Obj o :: r) i o' = Done (p ++ Obj o' :: r).
Proof. intros H. unfold assign. now rewrite nth_error_mid, upd_mid. Qed.

Lemma read_nth p q r i d : length p <= i -> i < length p + length q -> read (p ++ map Obj q ++ r) i = Done (nth (i - length p) q d).
Proof.
  intros H1 H2. unfold read. rewrite nth_error_app2, nth_error_app1 by (rewrite ?map_length; lia).
  rewrite nth_error_map, (nth_error_nth' q d) by lia. reflexivity.
Qed.

(** [*dst = std::move( *src)] with dst before, or after, src *)
Lemma move_cell_down p g q r x y s d : d = length p -> s = length p + 1 + length g ->
  move_cell (p ++ Obj y :: map Obj g ++ Obj x :: r) s d = Done (p ++ Obj x :: map Obj g ++ Obj None :: r).
Proof.
  intros -> ->. unfold move_cell.
  replace (p ++ Obj y :: map Obj g ++ Obj x :: r) with ((p ++ Obj y :: map Obj g) ++ Obj x :: r) by (now rewrite <- app_assoc).
  rewrite take_mid by (rewrite app_length; simpl; rewrite map_length; lia). simpl. rewrite <- app_assoc. simpl. now rewrite assign_mid.
Qed.

Lemma move_cell_up p r x y s d : s = length p -> d = length p + 1 ->
  move_cell (p ++ Obj x :: Obj y :: r) s d = Done (p ++ Obj None :: Obj x :: r).
Proof.
  intros -> ->. unfold move_cell. rewrite take_mid by reflexivity. simpl.
  replace (p ++ Obj None :: Obj y :: r) with ((p ++ [Obj None]) ++ Obj y :: r) by (now rewrite <- app_assoc).
  rewrite assign_mid by (rewrite app_length; simpl; lia). now rewrite <- app_assoc.
Qed.

Lemma move_forward_S m s n d : move_forward m s (S n) d = bind (move_cell m s d) (fun m => move_forward m (s + 1) n (d + 1)).
Proof.
  unfold move_forward. cbn [seq foreach]. rewrite !Nat.add_0_r. destruct (move_cell m s d) as [m'|]; cbn [bind]; [|reflexivity].
  rewrite <- seq_shift, foreach_map. apply foreach_ext. intros m1 k _. f_equal; lia.
Qed.

(** std::move over a gap of live objects: the values slide down, the vacated cells stay live. *)
Lemma move_forward_spec q : forall p g r s d, g <> [] -> d = length p -> s = length p + length g ->
  exists g', length g' = length g /\ move_forward (p ++ map Obj g ++ map Obj q ++ r) s (length q) d = Done (p ++ map Obj q ++ map Obj g' ++ r).
Proof.
  induction q as [|x q IH]; intros p g r s d Hg -> ->; simpl.
  - exists g. split; [reflexivity|]. reflexivity.
  - destruct g as [|y g]; [contradiction|]. rewrite move_forward_S. simpl map at 1. simpl.
    rewrite (move_cell_down p g q) by (simpl; lia). simpl.
    destruct (IH (p ++ [Obj x]) (g ++ [None]) r (length p + S (length g) + 1) (length p + 1)) as (g' & L & E).
    + now destruct g.
    + rewrite app_length; simpl; lia.
    + rewrite !app_length; simpl; lia.
    + exists g'. split; [rewrite L, app_length; simpl; lia|]. rewrite map_app, <- !app_assoc in E. simpl in E. exact E.
Qed.

Lemma move_backward_S m s n d : move_backward m s (S n) d = bind (move_cell m (s + n) (d + n)) (fun m => move_backward m s n d).
Proof. unfold move_backward. rewrite seq_S, rev_app_distr. reflexivity. Qed.

Lemma move_backward_spec q : forall p y r s d, s = length p -> d = length p + 1 ->
  exists y', move_backward (p ++ map Obj q ++ Obj y :: r) s (length q) d = Done (p ++ Obj y' :: map Obj q ++ r).
Proof.
  induction q as [|x q IH] using rev_ind; intros p y r s d -> ->.
  - exists y. reflexivity.
  - rewrite app_length, Nat.add_1_r, move_backward_S. rewrite map_app, <- app_assoc. simpl.
    rewrite (app_assoc p). rewrite move_cell_up by (rewrite app_length, map_length; lia). simpl. rewrite <- app_assoc.
    destruct (IH p None (Obj x :: r) (length p) (length p + 1) eq_refl eq_refl) as (y' & ->). exists y'. now rewrite <- app_assoc.
Qed.

Lemma destroy_range_spec q : forall p r a b, a = length p -> b = length p + length q ->
  destroy_range (p ++ map Obj q ++ r) a b = Done (p ++ repeat Raw (length q) ++ r).
Proof.
  unfold destroy_range. induction q as [|x q IH]; intros p r a b -> ->; simpl.
  - rewrite foreach_range_0 by lia. reflexivity.
  - rewrite foreach_range_S, destroy_mid by reflexivity. simpl.
    replace (p ++ Raw :: map Obj q ++ r) with ((p ++ [Raw]) ++ map Obj q ++ r) by (now rewrite <- app_assoc).
    rewrite IH by (rewrite app_length; simpl; lia). now rewrite <- app_assoc.
Qed.

Lemma construct_range_spec n : forall p r o a b, a = length p -> b = length p + n ->
  construct_range (p ++ repeat Raw n ++ r) a b o = Done (p ++ map Obj (repeat o n) ++ r).
Proof.
  unfold construct_range. induction n as [|n IH]; intros p r o a b -> ->; simpl.
  - rewrite foreach_range_0 by lia. reflexivity.
  - rewrite foreach_range_S, construct_mid by reflexivity. simpl.
    replace (p ++ Obj o :: repeat Raw n ++ r) with ((p ++ [Obj o]) ++ repeat Raw n ++ r) by (now rewrite <- app_assoc).
    rewrite IH by (rewrite app_length; simpl; lia). now rewrite <- app_assoc.
Qed.
End Cells.
