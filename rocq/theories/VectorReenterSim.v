(** Consequences of the specification VectorReenterSpec.v: constructors that add, destructors that remove, clear with destructors that add. *)
From Verif Require Import Base VectorReenterModel VectorReenterSpec VectorReenter.
From Coq Require Import Lia.
Open Scope nat_scope.

Lemma upd_mid {A} (l r : list A) x y : upd (l ++ x :: r) (length l) y = l ++ y :: r.
Proof. induction l as [|z l IH]; [reflexivity|]. cbn [length app upd]. now rewrite IH. Qed.
Lemma nth_mid {A} (l r : list A) x : nth_error (l ++ x :: r) (length l) = Some x.
Proof. rewrite nth_error_app2 by lia. now rewrite Nat.sub_diag. Qed.
Lemma repeat_snoc {A} (x : A) n l : repeat x n ++ x :: l = repeat x (n + 1) ++ l.
Proof. induction n as [|n IH]; [reflexivity|]. cbn [repeat app Nat.add]. now rewrite IH. Qed.

Section Sim.
Context {A : Type}.
Variables (cap : nat) (ctor dtor : A -> list (vcall A)).
Notation sp_exec := (sp_exec cap ctor dtor).
Notation sp_one := (sp_one cap ctor dtor).
Notation sp_all := (sp_all cap ctor dtor).
Notation lst := (list (cell A)).

(** *** Nothing is left half constructed *)
Definition fresh (f : lst -> outcome lst) : Prop := forall l l' j c, f l = Done l' -> nth_error l' j = Some c -> dead c -> nth_error l j = Some c.
Lemma clear_empty rec lim : forall fuel i l l', sp_clear dtor rec fuel lim i l = Done l' -> l' = [].
Proof.
  induction fuel as [|fuel IH]; intros i l l' E; cbn [sp_clear] in E; (destruct (i <? length l); [|now injection E as <-]); [discriminate|].
  destruct (nth_error l i) as [[| |a]|]; try discriminate. destruct (rec lim (dtor a) (upd l i Busy)) as [l1|]; [|discriminate]. exact (IH _ _ _ E).
Qed.
Lemma one_fresh rec (HR : forall lim cs, fresh (rec lim cs)) lim c : fresh (sp_one rec lim c).
Proof.
  intros l l' j x E N D. destruct c as [a| |i| |n a]; cbn [VectorReenterSpec.sp_one] in E.
  - destruct (length l <? lim); [|destruct (lim <? cap); discriminate]. destruct (rec lim (ctor a) (l ++ [Busy])) as [l1|] eqn:E1; [|discriminate]. cbn [bind] in E. injection E as <-.
    rewrite nth_error_upd in N. destruct (Nat.eqb_spec j (length l)) as [->|NE]; cbn [andb] in N.
    + destruct (length l <? length l1) eqn:L; [injection N as <-; destruct D|]. apply nth_some in N. apply Nat.ltb_ge in L. lia.
    + pose proof (HR _ _ _ _ _ _ E1 N D) as M. rewrite nth_app_mid in M. destruct (j <? length l); [exact M|]. apply Nat.eqb_neq in NE. rewrite NE in M. discriminate.
  - destruct (nth_error l (length l - 1)) as [[| |a]|] eqn:NL; try discriminate. pose proof (HR _ _ _ _ _ _ E N D) as M. pose proof (nth_some _ _ _ M) as L. rewrite removelast_len in L. now rewrite nth_removelast in M by lia.
  - destruct (nth_error l i) as [[| |]|]; try discriminate. now injection E as <-.
  - apply clear_empty in E as ->. now destruct j.
  - discriminate.
Qed.
Lemma exec_fresh : forall depth lim cs, fresh (sp_exec depth lim cs).
Proof.
  induction depth as [|depth IH]; intros lim cs l l' j c E N D; [discriminate|]. cbn [VectorReenterSpec.sp_exec] in E. revert l E. induction cs as [|x cs IHc]; intros l E; cbn [VectorReenterSpec.sp_all] in E; [now injection E as ->|].
  destruct (sp_one (sp_exec depth) lim x l) as [l1|] eqn:E1; [|discriminate]. cbn [bind] in E. apply (one_fresh _ IH lim x l l1 j c E1); [|exact D]. now apply IHc.
Qed.
Lemma all_live (l : lst) : (forall j c, nth_error l j = Some c -> ~ dead c) -> exists r, l = map Live r.
Proof.
  induction l as [|c l IH]; intros H; [now exists []|]. destruct IH as (r & ->); [intros j d N; exact (H (S j) d N)|]. pose proof (H 0 c eq_refl) as K. destruct c as [| |a]; [now destruct K..|]. now exists (a :: r).
Qed.
Lemma exec_live depth lim cs l l' : sp_exec depth lim cs (map Live l) = Done l' -> exists r, l' = map Live r.
Proof.
  intros E. apply all_live. intros j c N D. pose proof (exec_fresh depth lim cs _ _ j c E N D) as M. rewrite nth_error_map in M. destruct (nth_error l j); [|discriminate]. injection M as <-. exact D.
Qed.

(** *** Constructors that add *)
Scheme grows_ind2 := Minimality for grows Sort Prop with grow_ind2 := Minimality for grow Sort Prop.
Combined Scheme grow_mut from grows_ind2, grow_ind2.
Lemma grow_exec :
  (forall a T, grows ctor a T -> exists d, forall depth, d <= depth -> forall lim l,
    (length l + length T <= lim -> sp_one (sp_exec depth) lim (VPush a) l = Done (l ++ map Live T)) /\
    (length l <= cap -> cap < length l + length T -> sp_one (sp_exec depth) cap (VPush a) l = Fault FAssert)) /\
  (forall kids T, grow ctor kids T -> exists d, forall depth, d <= depth -> forall lim l,
    (length l + length T <= lim -> sp_all (sp_exec depth) lim (map VPush kids) l = Done (l ++ map Live T)) /\
    (length l <= cap -> cap < length l + length T -> sp_all (sp_exec depth) cap (map VPush kids) l = Fault FAssert)).
Proof.
  apply grow_mut.
  - intros a kids T E _ (d & H). exists (S d). intros [|depth] D lim l; [lia|]. cbn [VectorReenterSpec.sp_one VectorReenterSpec.sp_exec length]. rewrite E. assert (LB : forall l : lst, length (l ++ [Busy]) = length l + 1) by (intros; now rewrite app_length). split.
    + intros L. replace (length l <? lim) with true by (symmetry; apply Nat.ltb_lt; lia). rewrite (proj1 (H depth ltac:(lia) lim (l ++ [Busy]))) by (rewrite LB; lia). cbn [bind]. rewrite <- app_assoc. cbn [app]. rewrite upd_mid. reflexivity.
    + intros L K. rewrite Nat.ltb_irrefl. destruct (Nat.ltb_spec (length l) cap); [|reflexivity]. rewrite (proj2 (H depth ltac:(lia) lim (l ++ [Busy]))) by (rewrite LB; cbn [length] in K; lia). reflexivity.
  - exists 0. intros depth _ lim l. cbn [map VectorReenterSpec.sp_all length]. split; [|intros; lia]. intros _. now rewrite app_nil_r.
  - intros a kids T U _ (d & H) _ (e & K). exists (max d e). intros depth D lim l. cbn [map VectorReenterSpec.sp_all]. rewrite app_length. split.
    + intros L. rewrite (proj1 (H depth ltac:(lia) lim l)) by lia. cbn [bind]. rewrite (proj1 (K depth ltac:(lia) lim _)) by (rewrite app_length, map_length; lia). now rewrite map_app, app_assoc.
    + intros L M. destruct (Nat.le_gt_cases (length l + length T) cap) as [Q|Q].
      * rewrite (proj1 (H depth ltac:(lia) cap l)) by lia. cbn [bind]. apply (K depth ltac:(lia) lim); rewrite app_length, map_length; lia.
      * now rewrite (proj2 (H depth ltac:(lia) lim l)) by lia.
Qed.

(** *** Destructors that remove *)
Scheme owns_ind2 := Minimality for owns Sort Prop with own_ind2 := Minimality for own Sort Prop.
Combined Scheme own_mut from owns_ind2, own_ind2.
Lemma own_exec :
  (forall a T, owns dtor a T -> exists d, forall depth, d <= depth -> forall lim l, sp_one (sp_exec depth) lim VPop (l ++ map Live T) = Done l) /\
  (forall kids T, own dtor kids T -> exists d, forall depth, d <= depth -> forall lim l, sp_all (sp_exec depth) lim (map (fun _ => VPop) kids) (l ++ map Live T) = Done l).
Proof.
  apply own_mut.
  - intros a kids T E _ (d & H). exists (S d). intros [|depth] D lim l; [lia|]. cbn [VectorReenterSpec.sp_one VectorReenterSpec.sp_exec]. rewrite map_app, app_assoc. cbn [map].
    rewrite app_length. cbn [length]. rewrite Nat.add_sub, nth_mid, removelast_last, E. apply H. lia.
  - exists 0. intros depth _ lim l. cbn [map VectorReenterSpec.sp_all]. now rewrite app_nil_r.
  - intros a kids T U _ (d & H) _ (e & K). exists (max d e). intros depth D lim l. cbn [map VectorReenterSpec.sp_all]. rewrite map_app, app_assoc, H by lia. cbn [bind]. apply K. lia.
Qed.

(** *** clear with destructors that add *)
Lemma exec_eq depth lim cs l : sp_exec (S depth) lim cs l = sp_all (sp_exec depth) lim cs l.
Proof. reflexivity. Qed.
Lemma drains_length q n : drains ctor dtor q n -> length q <= n.
Proof. induction 1 as [|a q kids T n _ _ _ IH]; [reflexivity|]. rewrite app_length in IH. cbn [length]. lia. Qed.
Lemma drains_exec q n : drains ctor dtor q n -> exists d, forall depth, d <= depth -> forall i fuel, i + length q <= cap -> cap - i <= fuel ->
  sp_clear dtor (sp_exec depth) fuel cap i (repeat Raw i ++ map Live q) = if i + n <=? cap then Done [] else Fault FAssert.
Proof.
  induction 1 as [|a q kids T n E G DR IH].
  - exists 0. intros depth _ i fuel L F. cbn [map]. rewrite app_nil_r. replace (i + 0 <=? cap) with true by (symmetry; apply Nat.leb_le; cbn in L; lia).
    destruct fuel; cbn [sp_clear]; rewrite repeat_length, Nat.ltb_irrefl; reflexivity.
  - destruct IH as (d & IH). destruct (proj2 grow_exec kids T G) as (e & H). exists (S (max d e)). intros [|depth] D i fuel L F; [lia|]. cbn [length] in L. destruct fuel as [|fuel]; [lia|].
    cbn [sp_clear map]. rewrite app_length, repeat_length. cbn [length]. replace (i <? i + S (length (map Live q))) with true by (symmetry; apply Nat.ltb_lt; lia).
    assert (LR : length (repeat (@Raw A) i) = i) by apply repeat_length. pose proof (nth_mid (repeat Raw i) (map Live q) (Live a)) as N. pose proof (fun y => upd_mid (repeat Raw i) (map Live q) (Live a) y) as U. rewrite LR in N, U. rewrite N, U, E.
    rewrite exec_eq. specialize (H depth ltac:(lia) cap (repeat Raw i ++ Busy :: map Live q)). rewrite app_length, LR in H. cbn [length] in H. rewrite map_length in H.
    destruct (Nat.leb_spec (i + S n) cap) as [Q|Q].
    + pose proof (drains_length _ _ DR) as K. rewrite app_length in K. rewrite (proj1 H) by lia. cbn [bind]. rewrite <- app_assoc. cbn [app]. pose proof (upd_mid (repeat Raw i) (map Live q ++ map Live T) Busy Raw) as U2. rewrite LR in U2. rewrite U2, repeat_snoc, <- map_app.
      rewrite (IH (S depth) ltac:(lia) (i + 1) fuel) by (rewrite ?app_length; lia). now replace (i + 1 + n <=? cap) with true by (symmetry; apply Nat.leb_le; lia).
    + destruct (Nat.le_gt_cases (i + S (length q) + length T) cap) as [M|M].
      * rewrite (proj1 H) by lia. cbn [bind]. rewrite <- app_assoc. cbn [app]. pose proof (upd_mid (repeat Raw i) (map Live q ++ map Live T) Busy Raw) as U2. rewrite LR in U2. rewrite U2, repeat_snoc, <- map_app.
        rewrite (IH (S depth) ltac:(lia) (i + 1) fuel) by (rewrite ?app_length; lia). now replace (i + 1 + n <=? cap) with false by (symmetry; apply Nat.leb_gt; lia).
      * rewrite (proj2 H) by lia. reflexivity.
Qed.

(** A destructor that adds one element each time never ends, but for the capacity. *)
Lemma endless_exec depth q i fuel : (forall a, ctor a = []) -> (forall a, exists b, dtor a = [VPush b]) -> q <> [] -> i + length q <= cap -> cap - i <= fuel ->
  sp_clear dtor (sp_exec (S (S depth))) fuel cap i (repeat Raw i ++ map Live q) = Fault FAssert.
Proof.
  intros HC HD. revert q i. induction fuel as [|fuel IH]; intros q i Q L F.
  - destruct q; [congruence|]. cbn [length] in L. lia.
  - destruct q as [|a q]; [congruence|]. cbn [length] in L. cbn [sp_clear map]. rewrite app_length, repeat_length. cbn [length]. replace (i <? i + S (length (map Live q))) with true by (symmetry; apply Nat.ltb_lt; lia).
    assert (LR : length (repeat (@Raw A) i) = i) by apply repeat_length. pose proof (nth_mid (repeat Raw i) (map Live q) (Live a)) as N. pose proof (fun y => upd_mid (repeat Raw i) (map Live q) (Live a) y) as U. rewrite LR in N, U. rewrite N, U.
    destruct (HD a) as (b & ->). rewrite exec_eq. cbn [VectorReenterSpec.sp_all VectorReenterSpec.sp_one]. rewrite HC, exec_eq, app_length, LR, Nat.ltb_irrefl. cbn [length VectorReenterSpec.sp_all]. rewrite map_length.
    destruct (Nat.ltb_spec (i + S (length q)) cap) as [M|M]; [|reflexivity]. cbn [bind].
    rewrite <- app_assoc. cbn [app]. assert (E2 : upd (repeat Raw i ++ Busy :: map Live q ++ [Busy]) (i + S (length q)) (Live b) = repeat Raw i ++ Busy :: map Live (q ++ [b])).
    { pose proof (upd_mid (repeat Raw i ++ Busy :: map Live q) [] Busy (Live b)) as X. rewrite app_length, LR in X. cbn [length] in X. rewrite map_length, <- !app_assoc in X. cbn [app] in X. now rewrite X, map_app. }
    rewrite E2. pose proof (upd_mid (repeat Raw i) (map Live (q ++ [b])) Busy Raw) as U2. rewrite LR in U2. rewrite U2, repeat_snoc. apply (IH (q ++ [b]) (i + 1)); [now destruct q|rewrite app_length; cbn [length]; lia|lia].
Qed.
End Sim.
