(** Expressions over an iterator class whose operators compute what those of the positions of an array do. *)
From Verif Require Import Base CInt EnumArrayModel SparseModel IterExprModel.
Open Scope Z_scope.

(** *** Positions of an array of [len] elements, one past the end included. *)
Definition position (len : Z) : semantics Z Z :=
  let at_ i := if (0 <=? i) && (i <=? len) then Done i else Fault FUB in
  let elem i := if (0 <=? i) && (i <? len) then Done i else Fault FUB in
  Semantics _ _ (fun i => at_ (i + 1)) (fun i => at_ (i - 1)) (fun i n => at_ (i + n)) (fun i n => at_ (i - n)) (fun i n => at_ (i + n)) (fun i n => at_ (i - n))
    elem (fun i n => elem (i + n)) (fun i j => Done (i - j))
    (fun o i j => match o with Eq => Done (i =? j) | Ne => Done (negb (i =? j)) | Lt => Done (i <? j) | Gt => Done (j <? i) | Le => Done (i <=? j) | Ge => Done (j <=? i) | Diff => Fault FTerminate end).

(** Is the expression what [+=] or [-=] returned? *)
Definition assigning (e : expr) : bool := match e with ByN (AddAssign | SubAssign) _ _ => true | _ => false end.
(** The result of [+=] and [-=] is read at once and not changed. *)
Fixpoint plain (e : expr) : bool :=
  match e with
  | Var _ | New => true
  | Un (Deref | Arrow) e => plain e
  | Un _ e => plain e && negb (assigning e)
  | ByN (AddAssign | SubAssign) e _ => plain e && negb (assigning e)
  | ByN _ e _ => plain e
  | Bin _ e f => plain e && plain f && (negb (assigning e) || match f with Var _ => true | _ => false end)
  end.

Lemma upd_self {A} (l : list A) n x : (n < length l)%nat -> nth_error (upd l n x) n = Some x.
Proof. revert n. induction l as [|y l IH]; intros [|n] H; cbn in *; try lia; [reflexivity|]. apply IH. lia. Qed.
Lemma upd_len {A} (l : list A) n x : length (upd l n x) = length l.
Proof. revert n. induction l as [|y l IH]; intros [|n]; cbn; auto. Qed.
Lemma F2_upd {A B} (R : A -> B -> Prop) l k n x y : Forall2 R l k -> R x y -> Forall2 R (upd l n x) (upd k n y).
Proof. intros F Hxy. revert n. induction F as [|a b l k Hab F IH]; intros [|n]; cbn; constructor; auto. Qed.
Lemma F2_nth {A B} (R : A -> B -> Prop) l k n y : Forall2 R l k -> nth_error k n = Some y -> exists x, nth_error l n = Some x /\ R x y.
Proof. intros F. revert n. induction F as [|a b l k Hab F IH]; intros [|n] H; cbn in *; try discriminate; [injection H as <-; eauto|]. now apply IH. Qed.
Lemma F2_len {A B} (R : A -> B -> Prop) l k : Forall2 R l k -> length l = length k.
Proof. induction 1; cbn; auto. Qed.
Lemma inv {A B} (o : outcome A) (f : A -> outcome B) y : bind o f = Done y -> exists x, o = Done x /\ f x = Done y.
Proof. destruct o as [x|]; [|discriminate]. intros H. exists x. auto. Qed.
Lemma vget_nth {A} (l : list A) n x : vget l n = Done x <-> nth_error l n = Some x.
Proof. unfold vget. destruct (nth_error l n); split; intros H; try discriminate; injection H as ->; reflexivity. Qed.

Section Simulation.
  Context {I V : Type} (c : class) (s : semantics I V) (len : Z) (R : I -> Z -> Prop) (RV : V -> Z -> Prop).
  Let d := position len.
  Definition simulates (f : I -> outcome I) (g : Z -> outcome Z) : Prop := forall it i i', R it i -> g i = Done i' -> exists it', f it = Done it' /\ R it' i'.
  Definition simulates_elem (f : I -> outcome V) (g : Z -> outcome Z) : Prop := forall it i i', R it i -> g i = Done i' -> exists x, f it = Done x /\ RV x i'.
  Hypothesis H_inc : simulates (s_inc s) (s_inc d).
  Hypothesis H_dec : simulates (s_dec s) (s_dec d).
  Hypothesis H_add : forall n, simulates (fun it => s_add s it n) (fun i => s_add d i n).
  Hypothesis H_sub : forall n, simulates (fun it => s_sub s it n) (fun i => s_sub d i n).
  Hypothesis H_plus : forall n, by_n c Plus <> None \/ by_n c PlusLeft <> None -> simulates (fun it => s_plus s it n) (fun i => s_plus d i n).
  Hypothesis H_minus : forall n, by_n c Minus <> None -> simulates (fun it => s_minus s it n) (fun i => s_minus d i n).
  Hypothesis H_deref : simulates_elem (s_deref s) (s_deref d).
  Hypothesis H_index : forall n, simulates_elem (fun it => s_index s it n) (fun i => s_index d i n).
  Hypothesis H_diff : bin c Diff <> None -> forall it i jt j, R it i -> R jt j -> s_diff s it jt = Done (i - j).
  Hypothesis H_compare : forall o it i jt j b, R it i -> R jt j -> s_compare d o i j = Done b -> s_compare s o it jt = Done b.
  (** The increments return the iterator itself; += and -= do or return a copy. *)
  Hypothesis H_self : forall it o, @returned I V (un c PreInc) it o = VIter it o /\ @returned I V (un c PreDec) it o = VIter it o.
  Variable copies : bool.
  Hypothesis H_assign : forall o, (o = AddAssign \/ o = SubAssign) -> forall it obj, @returned I V (by_n c o) it obj = VIter it (if copies then None else obj).

  Definition related (e : expr) (w : value I V) (v : value Z Z) : Prop :=
    match w, v with
    | VIter it o, VIter i o' => R it i /\ o = (if copies && assigning e then None else o')
    | VDiff x, VDiff y => x = y
    | VBool x, VBool y => x = y
    | VElem x, VElem y => RV x y
    | _, _ => False
    end.
  Definition current (v : value Z Z) (k : list Z) : Prop := match v with VIter i (Some n) => nth_error k n = Some i | _ => True end.

  Lemma simulation : forall constant e l k t v k', type_of c constant e = Some t -> copies = false \/ plain e = true -> Forall2 R l k ->
    eval Ptr d e k = Done (v, k') -> exists w l', eval c s e l = Done (w, l') /\ Forall2 R l' k' /\ related e w v /\ current v k'.
  Proof.
    intros constant. induction e as [n| |o e IH|o e IH z|o e IHe f IHf]; intros l k t v k' T P F E.
    - cbn [eval] in E. apply inv in E. destruct E as (i & Hi & E). injection E as <- <-. apply vget_nth in Hi. destruct (F2_nth _ _ _ _ _ F Hi) as (it & Hit & HR).
      exists (VIter it (Some n)), l. cbn [eval]. rewrite (proj2 (vget_nth _ _ _) Hit). repeat split; cbn; auto. now rewrite Bool.andb_false_r.
    - discriminate.
    - cbn [eval type_of] in *. destruct (type_of c constant e) as [te|]; [|discriminate]. specialize (IH l k te).
      apply inv in E. destruct E as ((ve, ke) & Ee & E). apply inv in E. destruct E as ((i, obj) & Ei & E). destruct ve as [i0 o0| | |]; try discriminate Ei. cbn in Ei. injection Ei as -> ->.
      assert (Pe : copies = false \/ plain e = true) by (destruct P as [P|P]; [now left|right; destruct o; cbn in P; try apply andb_prop in P; tauto]).
      destruct (IH _ _ eq_refl Pe F Ee) as (w & l' & Ew & F' & Rw & Cw). destruct w as [it o'| | |]; try contradiction. destruct Rw as (Rit & Ho).
      rewrite Ew. cbn [bind the_iter].
      assert (Hm : forall o, o <> Deref -> o <> Arrow -> (copies = false \/ plain (Un o e) = true) -> o' = obj).
      { intros u N1 N2 [Q|Q]; rewrite Ho; [now rewrite Q|]. destruct u; cbn in Q; try contradiction; apply andb_prop in Q; destruct Q as (_ & Q); apply Bool.negb_true_iff in Q; now rewrite Q, Bool.andb_false_r. }
      destruct o; cbn [s_inc s_dec s_deref] in E.
      + apply inv in E. destruct E as (i' & Ei & E). injection E as <- <-. destruct (H_inc _ _ _ Rit Ei) as (it' & Eit & Rit'). rewrite Eit. cbn [bind]. rewrite (proj1 (H_self _ _)). specialize (Hm PreInc ltac:(discriminate) ltac:(discriminate) P). clear Ho; subst o'.
        eexists _, _. split; [reflexivity|]. split; [destruct obj; cbn; [now apply F2_upd|assumption]|]. split; [cbn; rewrite Bool.andb_false_r; auto|]. destruct obj as [n|]; cbn; [|exact Logic.I]. cbn in Cw. apply upd_self. apply nth_error_Some. congruence.
      + apply inv in E. destruct E as (i' & Ei & E). injection E as <- <-. destruct (H_inc _ _ _ Rit Ei) as (it' & Eit & Rit'). rewrite Eit. cbn [bind]. specialize (Hm PostInc ltac:(discriminate) ltac:(discriminate) P). clear Ho; subst o'.
        eexists _, _. split; [reflexivity|]. split; [destruct obj; cbn; [now apply F2_upd|assumption]|]. split; [cbn; rewrite Bool.andb_false_r; auto|exact Logic.I].
      + apply inv in E. destruct E as (i' & Ei & E). injection E as <- <-. destruct (H_dec _ _ _ Rit Ei) as (it' & Eit & Rit'). rewrite Eit. cbn [bind]. rewrite (proj2 (H_self _ _)). specialize (Hm PreDec ltac:(discriminate) ltac:(discriminate) P). clear Ho; subst o'.
        eexists _, _. split; [reflexivity|]. split; [destruct obj; cbn; [now apply F2_upd|assumption]|]. split; [cbn; rewrite Bool.andb_false_r; auto|]. destruct obj as [n|]; cbn; [|exact Logic.I]. cbn in Cw. apply upd_self. apply nth_error_Some. congruence.
      + apply inv in E. destruct E as (i' & Ei & E). injection E as <- <-. destruct (H_dec _ _ _ Rit Ei) as (it' & Eit & Rit'). rewrite Eit. cbn [bind]. specialize (Hm PostDec ltac:(discriminate) ltac:(discriminate) P). clear Ho; subst o'.
        eexists _, _. split; [reflexivity|]. split; [destruct obj; cbn; [now apply F2_upd|assumption]|]. split; [cbn; rewrite Bool.andb_false_r; auto|exact Logic.I].
      + apply inv in E. destruct E as (i' & Ei & E). injection E as <- <-. destruct (H_deref _ _ _ Rit Ei) as (x & Ex & Rx). rewrite Ex. cbn [bind]. eexists _, _. split; [reflexivity|]. repeat split; auto.
      + apply inv in E. destruct E as (i' & Ei & E). injection E as <- <-. destruct (H_deref _ _ _ Rit Ei) as (x & Ex & Rx). rewrite Ex. cbn [bind]. eexists _, _. split; [reflexivity|]. repeat split; auto.
    - cbn [eval type_of] in *. destruct (type_of c constant e) as [te|]; [|discriminate]. specialize (IH l k te).
      apply inv in E. destruct E as ((ve, ke) & Ee & E). apply inv in E. destruct E as ((i, obj) & Ei & E). destruct ve as [i0 o0| | |]; try discriminate Ei. cbn in Ei. injection Ei as -> ->.
      assert (Pe : copies = false \/ plain e = true) by (destruct P as [P|P]; [now left|right; destruct o; cbn in P; try apply andb_prop in P; tauto]).
      destruct (IH _ _ eq_refl Pe F Ee) as (w & l' & Ew & F' & Rw & Cw). destruct w as [it o'| | |]; try contradiction. destruct Rw as (Rit & Ho).
      rewrite Ew. cbn [bind the_iter].
      assert (Hm : forall o, o = AddAssign \/ o = SubAssign -> (copies = false \/ plain (ByN o e z) = true) -> o' = obj).
      { intros u N [Q|Q]; rewrite Ho; [now rewrite Q|]. destruct N as [-> | ->]; cbn in Q; apply andb_prop in Q; destruct Q as (_ & Q); apply Bool.negb_true_iff in Q; now rewrite Q, Bool.andb_false_r. }
      destruct o.
      + apply inv in E. destruct E as (i' & Ei & E). injection E as <- <-. destruct (H_add z _ _ _ Rit Ei) as (it' & Eit & Rit'). rewrite Eit. cbn [bind]. rewrite (H_assign AddAssign) by auto. specialize (Hm AddAssign (or_introl eq_refl) P). clear Ho; subst o'.
        eexists _, _. split; [reflexivity|]. split; [destruct obj; cbn; [now apply F2_upd|assumption]|]. split; [cbn; rewrite Bool.andb_true_r; auto|]. destruct obj as [n|]; cbn; [|exact Logic.I]. cbn in Cw. apply upd_self. apply nth_error_Some. congruence.
      + apply inv in E. destruct E as (i' & Ei & E). injection E as <- <-. destruct (H_sub z _ _ _ Rit Ei) as (it' & Eit & Rit'). rewrite Eit. cbn [bind]. rewrite (H_assign SubAssign) by auto. specialize (Hm SubAssign (or_intror eq_refl) P). clear Ho; subst o'.
        eexists _, _. split; [reflexivity|]. split; [destruct obj; cbn; [now apply F2_upd|assumption]|]. split; [cbn; rewrite Bool.andb_true_r; auto|]. destruct obj as [n|]; cbn; [|exact Logic.I]. cbn in Cw. apply upd_self. apply nth_error_Some. congruence.
      + apply inv in E. destruct E as (i' & Ei & E). injection E as <- <-. destruct (H_plus z ltac:(left; intros X; rewrite X in T; discriminate) _ _ _ Rit Ei) as (it' & Eit & Rit'). rewrite Eit. cbn [bind]. eexists _, _. split; [reflexivity|]. split; [assumption|]. split; [cbn; rewrite Bool.andb_false_r; auto|exact Logic.I].
      + apply inv in E. destruct E as (i' & Ei & E). injection E as <- <-. destruct (H_minus z ltac:(intros X; rewrite X in T; discriminate) _ _ _ Rit Ei) as (it' & Eit & Rit'). rewrite Eit. cbn [bind]. eexists _, _. split; [reflexivity|]. split; [assumption|]. split; [cbn; rewrite Bool.andb_false_r; auto|exact Logic.I].
      + apply inv in E. destruct E as (i' & Ei & E). injection E as <- <-. destruct (H_plus z ltac:(right; intros X; rewrite X in T; discriminate) _ _ _ Rit Ei) as (it' & Eit & Rit'). rewrite Eit. cbn [bind]. eexists _, _. split; [reflexivity|]. split; [assumption|]. split; [cbn; rewrite Bool.andb_false_r; auto|exact Logic.I].
      + apply inv in E. destruct E as (i' & Ei & E). injection E as <- <-. destruct (H_index z _ _ _ Rit Ei) as (x & Ex & Rx). rewrite Ex. cbn [bind]. eexists _, _. split; [reflexivity|]. repeat split; auto.
    - cbn [eval type_of] in *. destruct (type_of c constant e) as [te|]; [|discriminate]. destruct (type_of c constant f) as [tf|]; [|discriminate].
      apply inv in E. destruct E as ((ve, ke) & Ee & E). apply inv in E. destruct E as ((vf, kf) & Ef & E). apply inv in E. destruct E as ((i, p) & Ei & E). apply inv in E. destruct E as ((j, q) & Ej & E).
      destruct ve as [i0 o0| | |]; try discriminate Ei. cbn in Ei. injection Ei as -> ->. destruct vf as [j0 q0| | |]; try discriminate Ej. cbn in Ej. injection Ej as -> ->.
      assert (Pe : (copies = false \/ plain e = true) /\ (copies = false \/ plain f = true)) by (destruct P as [P|P]; [auto|cbn in P; apply andb_prop in P; destruct P as (P & _); apply andb_prop in P; tauto]).
      destruct (IHe _ _ _ _ _ eq_refl (proj1 Pe) F Ee) as (w & l1 & Ew & F1 & Rw & Cw). destruct w as [it o'| | |]; try contradiction. destruct Rw as (Rit & Ho).
      destruct (IHf _ _ _ _ _ eq_refl (proj2 Pe) F1 Ef) as (w & l2 & Ew2 & F2 & Rw2 & Cw2). destruct w as [jt q'| | |]; try contradiction. destruct Rw2 as (Rjt & Hq).
      rewrite Ew. cbn [bind]. rewrite Ew2. cbn [bind the_iter].
      set (ai := match p with Some n => match nth_error kf n with Some x => x | None => i end | None => i end) in *.
      set (aj := match q with Some n => match nth_error kf n with Some x => x | None => j end | None => j end) in *.
      set (bi := match o' with Some n => match nth_error l2 n with Some x => x | None => it end | None => it end) in *.
      set (bj := match q' with Some n => match nth_error l2 n with Some x => x | None => jt end | None => jt end) in *.
      assert (Ra : R bi ai).
      { unfold bi, ai. rewrite Ho. destruct copies eqn:C; cbn [andb].
        - destruct P as [P|P]; [discriminate|]. cbn in P. apply andb_prop in P. destruct P as (_ & P). destruct (assigning e) eqn:A; cbn in P.
          + destruct f as [m| | | |]; try discriminate P. cbn [eval] in Ef. apply inv in Ef. destruct Ef as (x & _ & Ef). injection Ef as _ _ <-. destruct p as [n|]; [|assumption]. cbn in Cw. rewrite Cw. assumption.
          + destruct p as [n|]; [|assumption]. destruct (nth_error kf n) as [x|] eqn:X; [destruct (F2_nth _ _ _ _ _ F2 X) as (y & -> & Hy); assumption|].
            assert (nth_error l2 n = None) as ->. { apply nth_error_None. apply nth_error_None in X. rewrite (F2_len _ _ _ F2). assumption. } assumption.
        - destruct p as [n|]; [|assumption]. destruct (nth_error kf n) as [x|] eqn:X; [destruct (F2_nth _ _ _ _ _ F2 X) as (y & -> & Hy); assumption|].
          assert (nth_error l2 n = None) as ->. { apply nth_error_None. apply nth_error_None in X. rewrite (F2_len _ _ _ F2). assumption. } assumption. }
      assert (Rb : R bj aj).
      { unfold bj, aj. rewrite Hq. destruct q as [n|]; [|destruct (copies && assigning f); assumption]. cbn in Cw2. rewrite Cw2. destruct (copies && assigning f); [assumption|]. destruct (F2_nth _ _ _ _ _ F2 Cw2) as (y & -> & Hy). assumption. }
      destruct o.
      1:{ injection E as <- <-. rewrite (H_diff ltac:(intros X; rewrite X in T; discriminate) _ _ _ _ Ra Rb). cbn [bind]. eexists _, _. split; [reflexivity|]. repeat split; auto. }
      all: apply inv in E; destruct E as (b & Eb & E); injection E as <- <-; rewrite (H_compare _ _ _ _ _ _ Ra Rb Eb); cbn [bind]; eexists _, _; split; [reflexivity|]; repeat split; auto.
  Qed.
End Simulation.
