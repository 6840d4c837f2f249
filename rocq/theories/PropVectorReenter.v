(** Property C140: elements of FixedVector and StackVector whose constructors and destructors use the vector. *)
From Verif Require Import Base VectorReenterModel VectorReenterSpec VectorReenter VectorReenterSim.
From Coq Require Import Lia.
Open Scope nat_scope.

(** C140: any nesting of emplace_back, pop_back, operator[] and clear does what the specification says, with the same faults; what is left is complete. *)
Theorem C140_nested_partial : forall (A : Type) cap ctor dtor depth cs (s : vs A) l, (forall a, Forall no_resize (ctor a)) -> (forall a, Forall no_resize (dtor a)) -> Forall no_resize cs -> holds cap s l ->
  match sp_exec cap ctor dtor depth cap cs (map Live l) with
  | Done l' => exists s' r, l' = map Live r /\ vexec ctor dtor depth cs s = Done s' /\ holds cap s' r
  | Fault f => vexec ctor dtor depth cs s = Fault f
  end.
Proof.
  intros A cap ctor dtor depth cs s l HC HD F H. apply holds_R in H. pose proof (exec_follows cap ctor dtor HC HD depth cap cs s (map Live l) F H) as X. unfold follows in X.
  destruct (sp_exec cap ctor dtor depth cap cs (map Live l)) as [l'|f] eqn:E; [|exact X]. destruct X as (s' & E' & R' & _). destruct (exec_live cap ctor dtor depth cap cs l l' E) as (r & ->).
  exists s', r. auto using R_holds.
Qed.
Print Assumptions C140_nested_partial.

(** C140: an element whose constructor adds others, which add others in turn: each comes before those it adds, if there is room; an assertion fails otherwise. *)
Theorem C140_grows : forall (A : Type) cap ctor dtor (s : vs A) l a T, (forall a, Forall no_resize (ctor a)) -> (forall a, Forall no_resize (dtor a)) -> holds cap s l -> grows ctor a T ->
  exists d, forall depth, d <= depth ->
    (length l + length T <= cap -> exists s', vexec ctor dtor depth [VPush a] s = Done s' /\ holds cap s' (l ++ T)) /\
    (cap < length l + length T -> vexec ctor dtor depth [VPush a] s = Fault FAssert).
Proof.
  intros A cap ctor dtor s l a T HC HD H G. destruct (proj1 (grow_exec cap ctor dtor) a T G) as (d & K). exists (S d). intros [|depth] D; [lia|].
  assert (NR : Forall (@no_resize A) [VPush a]) by (repeat constructor). pose proof (C140_nested_partial A cap ctor dtor (S depth) [VPush a] s l HC HD NR H) as X. cbn [sp_exec sp_all] in X. destruct (K depth ltac:(lia) cap (map Live l)) as (K1 & K2).
  rewrite map_length in K1, K2. pose proof (proj1 H) as L. split; intros Q.
  - rewrite (K1 Q) in X. cbn [bind] in X. destruct X as (s' & r & E & X & H'). exists s'. split; [exact X|]. rewrite <- map_app in E. assert (E2 : l ++ T = r); [|now rewrite E2].
    revert E. generalize (l ++ T). clear. intros x. revert r. induction x as [|y x IH]; intros [|z r] E; try discriminate; [reflexivity|]. cbn [map] in E. injection E as -> E. now rewrite (IH r E).
  - rewrite (K2 L Q) in X. exact X.
Qed.
Print Assumptions C140_grows.

(** C140: an element whose destructor pops what it owns, which pops what it owns in turn: pop_back removes all of them and nothing else. *)
Theorem C140_owns : forall (A : Type) cap ctor dtor (s : vs A) l a T, (forall a, Forall no_resize (ctor a)) -> (forall a, Forall no_resize (dtor a)) -> holds cap s (l ++ T) -> owns dtor a T ->
  exists d, forall depth, d <= depth -> exists s', vexec ctor dtor depth [VPop] s = Done s' /\ holds cap s' l.
Proof.
  intros A cap ctor dtor s l a T HC HD H G. destruct (proj1 (own_exec cap ctor dtor) a T G) as (d & K). exists (S d). intros [|depth] D; [lia|].
  assert (NR : Forall (@no_resize A) [VPop]) by (repeat constructor). pose proof (C140_nested_partial A cap ctor dtor (S depth) [VPop] s (l ++ T) HC HD NR H) as X. cbn [sp_exec sp_all] in X. rewrite map_app, (K depth ltac:(lia) cap (map Live l)) in X. cbn [bind] in X.
  destruct X as (s' & r & E & X & H'). exists s'. split; [exact X|]. assert (E2 : l = r); [|now rewrite E2].
  revert E. clear. revert r. induction l as [|y x IH]; intros [|z r] E; try discriminate; [reflexivity|]. cbn [map] in E. injection E as -> E. now rewrite (IH r E).
Qed.
Print Assumptions C140_owns.

(** C140: clear, and the destructor of the vector, with elements whose destructors add others: all of them are destroyed once, if there is room for all that ever come to be; otherwise an
    assertion fails. *)
Theorem C140_clear : forall (A : Type) cap ctor dtor (s : vs A) l n, (forall a, Forall no_resize (ctor a)) -> (forall a, Forall no_resize (dtor a)) -> holds cap s l -> drains ctor dtor l n ->
  exists d, forall depth, d <= depth ->
    (n <= cap -> vexec ctor dtor depth [VClear] s = Done (VS (repeat Raw cap) 0)) /\ (cap < n -> vexec ctor dtor depth [VClear] s = Fault FAssert).
Proof.
  intros A cap ctor dtor s l n HC HD H G. destruct (drains_exec cap ctor dtor l n G) as (d & K). exists (S d). intros [|depth] D; [lia|].
  assert (NR : Forall (@no_resize A) [VClear]) by (repeat constructor). pose proof (C140_nested_partial A cap ctor dtor (S depth) [VClear] s l HC HD NR H) as X. cbn [sp_exec sp_all sp_one] in X.
  pose proof (K depth ltac:(lia) 0 cap (proj1 H) ltac:(lia)) as Y. cbn [repeat app Nat.add] in Y. rewrite Y in X. split; intros Q.
  - replace (n <=? cap) with true in X by (symmetry; apply Nat.leb_le; lia). cbn [bind] in X. destruct X as (s' & r & E & X & H'). destruct r; [|discriminate]. destruct H' as (_ & ->). cbn [length map app] in X. now rewrite Nat.sub_0_r in X.
  - replace (n <=? cap) with false in X by (symmetry; apply Nat.leb_gt; lia). exact X.
Qed.
Print Assumptions C140_clear.
(** Destructors that each add another: the capacity stops them. *)
Theorem C140_clear_endless_refuted : forall (A : Type) cap ctor dtor (s : vs A) l depth, (forall a, ctor a = []) -> (forall a, exists b, dtor a = [VPush b]) -> holds cap s l -> l <> [] ->
  vexec ctor dtor (S (S (S depth))) [VClear] s = Fault FAssert.
Proof.
  intros A cap ctor dtor s l depth HC HD H NE.
  assert (NR : Forall (@no_resize A) [VClear]) by (repeat constructor).
  assert (HC' : forall a, Forall no_resize (ctor a)) by (intros a; rewrite HC; constructor). assert (HD' : forall a, Forall no_resize (dtor a)) by (intros a; destruct (HD a) as (b & ->); repeat constructor).
  pose proof (C140_nested_partial A cap ctor dtor (S (S (S depth))) [VClear] s l HC' HD' NR H) as X.
  rewrite exec_eq in X. cbn [sp_all sp_one] in X. pose proof (endless_exec cap ctor dtor depth l 0 cap HC HD NE (proj1 H) ltac:(lia)) as Y. cbn [repeat app] in Y. rewrite Y in X. exact X.
Qed.
Print Assumptions C140_clear_endless_refuted.

(** C140: a destructor called by pop_back cannot add an element: it would be constructed in the place of the one being destroyed. *)
Theorem C140_pop_adding_refuted : forall (A : Type) cap ctor dtor (s : vs A) l a b rest depth, (forall a, Forall no_resize (ctor a)) -> (forall a, Forall no_resize (dtor a)) ->
  holds cap s (l ++ [a]) -> dtor a = VPush b :: rest -> vexec ctor dtor (S (S depth)) [VPop] s = Fault FUB.
Proof.
  intros A cap ctor dtor s l a b rest depth HC HD H E. assert (NR : Forall (@no_resize A) [VPop]) by (repeat constructor). pose proof (C140_nested_partial A cap ctor dtor (S (S depth)) [VPop] s (l ++ [a]) HC HD NR H) as X.
  rewrite exec_eq in X. cbn [sp_all sp_one] in X. rewrite map_app, app_length in X. cbn [map length] in X. rewrite Nat.add_sub, nth_mid, removelast_last, E, exec_eq in X. cbn [sp_all sp_one] in X. rewrite Nat.ltb_irrefl in X.
  destruct H as (L & _). rewrite app_length in L. cbn [length] in L. rewrite map_length in X. replace (length l <? cap) with true in X by (symmetry; apply Nat.ltb_lt; lia). exact X.
Qed.
Print Assumptions C140_pop_adding_refuted.

(** C140: in clear the elements destroyed stay within the size: a destructor that looks at the vector, or clears it, reads or destroys them. Elements 0: nothing; 1: reads the first element; 2: clears. *)
Definition looks (a : nat) : list (vcall nat) := match a with 1 => [VRead 0] | 2 => [VClear] | _ => [] end.
Definition quiet (a : nat) : list (vcall nat) := [].
Theorem C140_clear_reading_refuted :
  (exists s, holds 4 s [0; 1] /\ vexec quiet looks 9 [VRead 0; VRead 1] s = Done s /\ vexec quiet looks 9 [VClear] s = Fault FUB /\ exists s', vexec quiet looks 9 [VPop; VPop] s = Done s' /\ holds 4 s' []) /\
  (exists s, holds 4 s [2] /\ vexec quiet looks 9 [VClear] s = Fault FUB /\ exists s', vexec quiet looks 9 [VPop] s = Done s' /\ holds 4 s' []).
Proof.
  split; eexists; (split; [split; [|reflexivity]; cbn; lia|]).
  - split; [reflexivity|]. split; [reflexivity|]. eexists. split; [reflexivity|]. split; [cbn; lia|reflexivity].
  - split; [reflexivity|]. eexists. split; [reflexivity|]. split; [cbn; lia|reflexivity].
Qed.
Print Assumptions C140_clear_reading_refuted.

(** C140: resize constructs the new elements before it sets the size: a constructor that adds an element constructs it in its own place, … *)
Theorem C140_resize_adding_refuted : forall (A : Type) cap ctor dtor (s : vs A) l count a b rest depth, holds cap s l -> length l < count <= cap -> ctor a = VPush b :: rest ->
  vexec ctor dtor (S (S depth)) [VResize count a] s = Fault FUB.
Proof.
  intros A cap ctor dtor s l count a b rest depth H L E. apply holds_R in H. destruct H as [H1 H2 H3 H4 H5 H6 _]. rewrite map_length in *.
  cbn [vexec vexec_all vexec_one]. rewrite H1, H2. replace (count <=? cap) with true by (symmetry; apply Nat.leb_le; lia). cbn [assert bind]. replace (length l <? count) with true by (symmetry; apply Nat.ltb_lt; lia).
  destruct (count - length l) as [|n] eqn:C; [lia|]. cbn [construct_from]. unfold construct_at at 1, vget. rewrite H6 by lia. cbn [bind]. rewrite E. cbn [vexec_all vexec_one cells m_size]. rewrite upd_length, H1, H2.
  replace (length l <? cap) with true by (symmetry; apply Nat.ltb_lt; lia). cbn [assert bind]. unfold construct_at, vget. cbn [cells]. rewrite nth_error_upd, Nat.eqb_refl, H1. now replace (length l <? cap) with true by (symmetry; apply Nat.ltb_lt; lia).
Qed.
(** … and one that removes the last element leaves a hole below the size. *)
Theorem C140_resize_removing_refuted : exists (ctor : nat -> list (vcall nat)) s s', holds 4 s [0] /\ vexec ctor quiet 9 [VResize 2 1] s = Done s' /\ m_size s' = 2 /\ nth_error (cells s') 0 = Some Raw.
Proof. exists (fun a => match a with 1 => [VPop] | _ => [] end). eexists _, _. split; [split; [|reflexivity]; cbn; lia|]. repeat split. Qed.
Print Assumptions C140_resize_adding_refuted.
Print Assumptions C140_resize_removing_refuted.

(** C140: elements that do not use the vector: the calls are the usual ones. *)
Lemma construct_plain {A} (ctor dtor : A -> list (vcall A)) rec a : (forall a, ctor a = []) -> (forall s, rec [] s = Done s) ->
  forall n (l : list A) k, construct_from ctor rec n (length l) a (VS (map Live l ++ repeat Raw (n + k)) (m_size (VS (map Live l) (length l)))) =
    Done (VS (map Live l ++ repeat (Live a) n ++ repeat Raw k) (length l)).
Proof.
  intros HC HR n l k. cbn [m_size]. generalize (length l) at 2 3 as sz. intros sz. revert l. induction n as [|n IH]; intros l; [reflexivity|]. cbn [construct_from Nat.add repeat]. unfold construct_at, vget. cbn [cells m_size].
  pose proof (nth_mid (map Live l) (repeat Raw (n + k)) (@Raw A)) as N. pose proof (fun x y => upd_mid (map Live l) (repeat (@Raw A) (n + k)) x y) as U. rewrite map_length in N, U. rewrite N. cbn [bind]. rewrite HC, U, HR. cbn [bind cells m_size]. rewrite U.
  specialize (IH (l ++ [a])). rewrite app_length, map_app, <- !app_assoc in IH. cbn [length map app] in IH. rewrite IH. reflexivity.
Qed.
Lemma destroy_plain {A} (dtor : A -> list (vcall A)) rec : (forall a, dtor a = []) -> (forall s, rec [] s = Done s) ->
  forall (q : list A) l i k fuel, length q <= fuel -> destroy_from dtor rec fuel (length l + i) (VS (map Live l ++ repeat Raw i ++ map Live q ++ repeat Raw k) (length l + i + length q)) =
    Done (VS (map Live l ++ repeat Raw i ++ repeat Raw (length q) ++ repeat Raw k) (length l + i + length q)).
Proof.
  intros HD HR. induction q as [|a q IH]; intros l i k fuel F; cbn [length] in *.
  - rewrite Nat.add_0_r. destruct fuel; cbn [destroy_from m_size]; rewrite Nat.ltb_irrefl; reflexivity.
  - destruct fuel as [|fuel]; [lia|]. cbn [destroy_from m_size]. replace (length l + i <? length l + i + S (length q)) with true by (symmetry; apply Nat.ltb_lt; lia). unfold destroy_at, vget. cbn [cells m_size].
    pose proof (nth_mid (map Live l ++ repeat Raw i) (map Live q ++ repeat Raw k) (Live a)) as N. pose proof (fun x y => upd_mid (map Live l ++ repeat Raw i) (map Live q ++ repeat Raw k) x y) as U.
    rewrite app_length, map_length, repeat_length in N, U. rewrite <- app_assoc in N. assert (U' : forall x y, upd (map Live l ++ repeat Raw i ++ x :: map Live q ++ repeat Raw k) (length l + i) y = map Live l ++ repeat Raw i ++ y :: map Live q ++ repeat Raw k) by (intros x y; rewrite app_assoc, (U x y); now rewrite <- app_assoc).
    cbn [map app]. rewrite N. cbn [bind]. rewrite HD, U', HR. cbn [bind cells m_size]. rewrite U', repeat_snoc. specialize (IH l (i + 1) k fuel ltac:(lia)). rewrite !Nat.add_assoc in IH. replace (length l + i + S (length q)) with (length l + i + 1 + length q) by lia.
    rewrite IH. cbn [repeat app]. now rewrite repeat_snoc.
Qed.
Lemma map_rep {A B} (f : A -> B) a n : map f (repeat a n) = repeat (f a) n.
Proof. induction n as [|n IH]; [reflexivity|]. cbn [repeat map]. now rewrite IH. Qed.
Theorem C140_plain : forall (A : Type) cap ctor dtor (s : vs A) l depth, (forall a, ctor a = []) -> (forall a, dtor a = []) -> holds cap s l ->
  let call c := vexec ctor dtor (S (S depth)) [c] s in
  let gives c r := exists s', call c = Done s' /\ holds cap s' r in
  (forall a, if length l <? cap then gives (VPush a) (l ++ [a]) else call (VPush a) = Fault FAssert) /\
  (forall r a, l = r ++ [a] -> gives VPop r) /\ (l = [] -> call VPop = Fault FAssert) /\
  (forall i, call (VRead i) = if i <? length l then Done s else Fault FAssert) /\
  gives VClear [] /\
  (forall count a, if count <=? cap then gives (VResize count a) (firstn count l ++ repeat a (count - length l)) else call (VResize count a) = Fault FAssert).
Proof.
  intros A cap ctor dtor s l depth HC HD H call gives. pose proof H as (L & ES).
  assert (HC' : forall a, Forall no_resize (ctor a)) by (intros a; rewrite HC; constructor). assert (HD' : forall a, Forall no_resize (dtor a)) by (intros a; rewrite HD; constructor).
  assert (INJ : forall x r : list A, map Live x = map Live r -> x = r).
  { clear. induction x as [|y x IH]; intros [|z r] E; try discriminate; [reflexivity|]. cbn [map] in E. injection E as -> E. now rewrite (IH r E). }
  pose proof (fun cs F => C140_nested_partial A cap ctor dtor (S (S depth)) cs s l HC' HD' F H) as X.
  assert (HR : forall s, vexec ctor dtor (S depth) [] s = Done s) by reflexivity.
  assert (EQ : forall c, vexec ctor dtor (S (S depth)) [c] s = bind (vexec_one ctor dtor (vexec ctor dtor (S depth)) c s) (fun s => Done s)) by reflexivity.
  repeat split.
  - intros a. specialize (X [VPush a] ltac:(repeat constructor)). rewrite exec_eq in X. cbn [sp_all sp_one] in X. rewrite map_length, Nat.ltb_irrefl in X. destruct (length l <? cap); [|exact X].
    rewrite HC in X. cbn [sp_exec sp_all bind] in X. pose proof (upd_mid (map Live l) [] Busy (Live a)) as U. rewrite map_length in U. rewrite U in X. destruct X as (s' & r & E & X & H'). exists s'. split; [exact X|]. change [Live a] with (map Live [a]) in E. rewrite <- map_app in E. now rewrite (INJ _ _ E).
  - intros r a ->. specialize (X [VPop] ltac:(repeat constructor)). rewrite exec_eq in X. cbn [sp_all sp_one] in X. rewrite map_app, app_length in X. cbn [map length] in X. rewrite Nat.add_sub, nth_mid, removelast_last, HD in X. cbn [sp_exec sp_all bind] in X.
    destruct X as (s' & r' & E & X & H'). exists s'. split; [exact X|]. now rewrite (INJ _ _ E).
  - intros ->. exact (X [VPop] ltac:(repeat constructor)).
  - intros i. subst s. unfold call. cbn [vexec vexec_all vexec_one m_size cells]. destruct (Nat.ltb_spec i (length l)) as [K|K]; [|reflexivity]. cbn [assert bind]. unfold vget. rewrite nth_error_app1 by (now rewrite map_length). rewrite nth_error_map.
    destruct (nth_error l i) eqn:N; [reflexivity|]. apply nth_error_None in N. lia.
  - assert (LC : length (cells s) = cap) by (subst s; cbn [cells]; rewrite app_length, map_length, repeat_length; lia). exists (VS (repeat Raw cap) 0). split; [|split; [cbn [length]; lia|cbn [map length app]; now rewrite Nat.sub_0_r]].
    unfold call. rewrite EQ. unfold vexec_one. rewrite LC. pose proof (destroy_plain dtor _ HD HR l [] 0 (cap - length l) cap L) as D. cbn [map repeat app length Nat.add] in D. rewrite <- ES in D. rewrite D. cbn [bind cells]. rewrite <- repeat_app. now replace (length l + (cap - length l)) with cap by lia.
  - intros count a. assert (LC : length (cells s) = cap) by (subst s; cbn [cells]; rewrite app_length, map_length, repeat_length; lia). unfold gives, call. rewrite EQ. unfold vexec_one. rewrite LC. replace (m_size s) with (length l) by (subst s; reflexivity).
    destruct (Nat.leb_spec count cap) as [K|K]; [|reflexivity]. cbn [assert bind]. destruct (Nat.ltb_spec (length l) count) as [M|M].
    + pose proof (construct_plain ctor dtor _ a HC HR (count - length l) l (cap - count)) as C. replace (count - length l + (cap - count)) with (cap - length l) in C by lia. cbn [m_size] in C. rewrite <- ES in C. rewrite C. cbn [bind cells]. eexists. split; [reflexivity|].
      rewrite firstn_all2 by lia. split; [rewrite app_length, repeat_length; lia|]. f_equal; [|rewrite app_length, repeat_length; lia]. rewrite map_app, map_rep, <- app_assoc, app_length, repeat_length. repeat f_equal. lia.
    + destruct (Nat.ltb_spec count (length l)) as [N|N].
      * pose proof (destroy_plain dtor _ HD HR (skipn count l) (firstn count l) 0 (cap - length l) cap ltac:(rewrite skipn_length; lia)) as D. rewrite firstn_length_le, skipn_length in D by lia. cbn [repeat app] in D. rewrite Nat.add_0_r, app_assoc, <- map_app, firstn_skipn in D.
        replace (count + (length l - count)) with (length l) in D by lia. rewrite <- ES in D. rewrite D. cbn [bind cells]. eexists. split; [reflexivity|]. replace (count - length l) with 0 by lia. cbn [repeat]. rewrite app_nil_r. split; [rewrite firstn_length_le; lia|].
        rewrite firstn_length_le by lia. f_equal. f_equal. rewrite <- repeat_app. f_equal. lia.
      * exists s. split; [reflexivity|]. replace (count - length l) with 0 by lia. cbn [repeat]. rewrite app_nil_r, firstn_all2 by lia. exact H.
Qed.
Print Assumptions C140_plain.

(** Elements 0; 1, whose constructor adds 0 and 2; 2, which adds 0; 3, whose destructor pops two; 4, whose destructor adds 0. *)
Definition adds (a : nat) : list (vcall nat) := match a with 1 => [VPush 0; VPush 2] | 2 => [VPush 0] | _ => [] end.
Definition removes (a : nat) : list (vcall nat) := match a with 3 => [VPop; VPop] | 4 => [VPush 0] | _ => [] end.
Example C140_example :
  grows adds 1 [1; 0; 2; 0] /\ owns removes 3 [0; 0; 3; 0; 3] /\ drains adds removes [4; 4; 0] 5 /\
  (exists s, vexec adds removes 5 [VPush 1] (VS (repeat Raw 6) 0) = Done s /\ holds 6 s [1; 0; 2; 0]) /\
  vexec adds removes 5 [VPush 0; VPush 1] (VS (repeat Raw 4) 0) = Fault FAssert /\
  (exists s, vexec adds removes 5 [VPush 0; VPush 0; VPush 0; VPush 3; VPush 0; VPush 3; VPop] (VS (repeat Raw 6) 0) = Done s /\ holds 6 s [0]) /\
  vexec adds removes 5 [VPush 4; VPush 4; VPush 0; VClear] (VS (repeat Raw 5) 0) = Done (VS (repeat Raw 5) 0) /\
  vexec adds removes 5 [VPush 4; VPush 4; VPush 0; VClear] (VS (repeat Raw 4) 0) = Fault FAssert.
Proof.
  assert (G0 : grows adds 0 [0]) by (apply Grows with (kids := []); [reflexivity|constructor]).
  assert (O0 : owns removes 0 [0]) by (apply (Owns removes 0 [] []); [reflexivity|constructor]).
  split; [|split; [|split; [|split; [|split; [|split; [|split; vm_compute; reflexivity]]]]]].
  - apply Grows with (kids := [0; 2]); [reflexivity|]. apply (Grow_cons adds 0 [2] [0] [2; 0] G0). apply (Grow_cons adds 2 [] [2; 0] []); [|constructor].
    apply Grows with (kids := [0]); [reflexivity|]. apply (Grow_cons adds 0 [] [0] [] G0). constructor.
  - apply (Owns removes 3 [0; 3] [0; 0; 3; 0]); [reflexivity|]. apply (Own_cons removes 0 [3] [0] [0; 0; 3] O0). apply (Own_cons removes 3 [] [0; 0; 3] []); [|constructor].
    apply (Owns removes 3 [0; 0] [0; 0]); [reflexivity|]. apply (Own_cons removes 0 [0] [0] [0] O0). apply (Own_cons removes 0 [] [0] [] O0). constructor.
  - assert (GG : grow adds [0] [0]) by (apply (Grow_cons adds 0 [] [0] [] G0); constructor).
    apply (Drains_cons _ _ _ _ [0] [0]); [reflexivity|exact GG|]. apply (Drains_cons _ _ _ _ [0] [0]); [reflexivity|exact GG|]. cbn [app].
    do 3 (apply (Drains_cons _ _ _ _ [] []); [reflexivity|apply Grow_nil|]). apply Drains_nil.
  - eexists. split; [vm_compute; reflexivity|]. split; [cbn; lia|reflexivity].
  - vm_compute. reflexivity.
  - eexists. split; [vm_compute; reflexivity|]. split; [cbn; lia|reflexivity].
Qed.
