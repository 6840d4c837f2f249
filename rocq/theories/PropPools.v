(** C146: programs with several MemoryPool variables. *)
From Verif Require Import Base CellModel CellProofs PoolModel PoolProofs PoolHistory PoolsModel PropPool.
Open Scope nat_scope.

(** *** Specification: each pool is a row of slots, and each block of [per] slots has a place in memory. *)
Section Spec.
Context {A : Type}.
Variable stride : N.

Record row := Row { per : nat; slots : list (slot A); homes : list N }.
Record rstate := RS { rows : nat -> option row; forgotten : list A }.
Definition set {X} (f : nat -> X) (d : nat) (x : X) : nat -> X := fun k => if Nat.eq_dec k d then x else f k.
Definition lives (l : list (slot A)) : list A := flat_map (fun x => match x with Live a => [a] | _ => [] end) l.
(** The place of slot [i]. *)
Definition home (r : row) (i : nat) : N := (nth (i / per r) (homes r) 0 + N.of_nat (i mod per r) * stride)%N.
Definition blank (r : row) : row := Row (per r) [] [].
(** Clear and the destructor do not work for blocks of one entry unless nothing is held (C46_block_of_one_refuted). *)
Definition clearable (r : row) : bool := negb (per r =? 1) || forallb vacant (slots r).

Definition row_op (r : row) (o : pop A) : outcome (row * option (nat * N)) :=
  ' (l, i) <- sp_apply (per r) (slots r) o ;;
  let extra at_ := if forallb held (slots r) then [at_] else [] in
  h <- match o with
       | PAlloc _ at_ | PDefer at_ => Done (homes r ++ extra at_)
       | PClear => if clearable r then Done [] else Fault FAssert
       | _ => Done (homes r)
       end ;;
  let r := Row (per r) l h in Done (r, option_map (fun i => (i, home r i)) i).

Definition rstep (s : rstate) (o : @qop A) : outcome (rstate * option (nat * N)) :=
  match o with
  | QNew d n at_ => match rows s d with None => Done (RS (set (rows s) d (Some (Row n (repeat Vacant n) [at_]))) (forgotten s), None) | Some _ => Fault FUB end
  | QOp d o => match rows s d with Some r => ' (r, x) <- row_op r o ;; Done (RS (set (rows s) d (Some r)) (forgotten s), x) | None => Fault FUB end
  | QMove d e => match rows s d, rows s e with None, Some r => Done (RS (set (set (rows s) e (Some (blank r))) d (Some r)) (forgotten s), None) | _, _ => Fault FUB end
  | QAssign d e =>
    match rows s d, rows s e with
    | Some t, Some r => Done (RS (if Nat.eq_dec d e then set (rows s) d (Some (blank t)) else set (set (rows s) e (Some (blank r))) d (Some r)) (forgotten s ++ lives (slots t)), None)
    | _, _ => Fault FUB
    end
  | QSwap a b => match rows s a, rows s b with Some r, Some t => Done (RS (set (set (rows s) a (Some t)) b (Some r)) (forgotten s), None) | _, _ => Fault FUB end
  | QEnd d => match rows s d with Some r => if sp_settled (slots r) then if clearable r then Done (RS (set (rows s) d None) (forgotten s), None) else Fault FAssert else Fault FUB | None => Fault FUB end
  end.
Fixpoint rrun (s : rstate) (ops : list qop) : outcome (rstate * list (option (nat * N))) :=
  match ops with
  | [] => Done (s, [])
  | o :: ops => ' (s, r) <- rstep s o ;; ' (s, rs) <- rrun s ops ;; Done (s, r :: rs)
  end.
Definition rows_start : rstate := RS (fun _ => None) [].
(** Blocks are not empty. *)
Definition sized (o : @qop A) : Prop := match o with QNew _ n _ => 0 < n | _ => True end.
End Spec.
Arguments row : clear implicits. Arguments rstate : clear implicits.

(** *** The relation *)
Section Proofs.
Context {A : Type}.
Variable stride : N.

Definition same (p : @pool A) (r : row A) : Prop := 0 < per r /\ exists ss, rep (per r) p ss /\ concat ss = slots r /\ bases p = homes r.
Definition same_var (p : option pool) (r : option (row A)) : Prop := match p, r with Some p, Some r => same p r | None, None => True | _, _ => False end.
Definition related (st : pstate) (s : rstate A) : Prop := (forall d, same_var (vars st d) (rows s d)) /\ lost st = map Some (forgotten s).

Lemma put_set {X Y} (P : X -> Y -> Prop) (f : nat -> X) (g : nat -> Y) d x y : (forall k, P (f k) (g k)) -> P x y -> forall k, P (put f d x k) (set g d y k).
Proof. intros F H k. unfold put, set. destruct (Nat.eqb_spec k d), (Nat.eq_dec k d); try contradiction; auto. Qed.

Lemma same_blank p r : same p r -> same (MP (m_blockSize p) []) (blank r).
Proof. intros (H & ss & (E & _) & _). split; [exact H|]. exists []. rewrite E. split; [split; [reflexivity | constructor] | split; reflexivity]. Qed.

Lemma objects_rep n p ss : rep n p ss -> objects (m_blocks p) = map (@Some A) (lives (concat ss)).
Proof.
  intros (_ & H). unfold objects, lives. induction H as [|b s l ss (_ & _ & M & _) H IH]; [reflexivity|]. cbn [flat_map concat]. rewrite IH, flat_map_app, map_app. f_equal.
  rewrite M. clear. induction s as [|x s IH]; [reflexivity|]. cbn [map flat_map]. rewrite map_app, <- IH. destruct x; reflexivity.
Qed.
Lemma objects_raw n l : all_raw n l -> objects l = ([] : list (option A)).
Proof. unfold all_raw. intros H. induction H as [|b l Hb H IH]; [reflexivity|]. unfold objects in *. cbn [flat_map]. rewrite IH, Hb, app_nil_r. clear. induction n; [reflexivity | exact IHn]. Qed.

Lemma vacant_count (l : list (slot A)) : forallb vacant l = true <-> sp_count l = 0.
Proof. unfold sp_count. induction l as [|x l IH]; [tauto|]. cbn [forallb filter]. unfold held. destruct (vacant x); cbn [negb andb length]; [exact IH | split; discriminate]. Qed.
Lemma clearable_iff (r : row A) : 0 < per r -> clearable r = true <-> 2 <= per r \/ sp_count (slots r) = 0.
Proof.
  intros H. unfold clearable. rewrite <- vacant_count. destruct (Nat.eqb_spec (per r) 1) as [E|E]; cbn [negb orb]; [split; [auto | intros [G|G]; [lia | exact G]] | split; [left; lia | reflexivity]].
Qed.
Lemma held_full (l : list (slot A)) : forallb held l = match first_vacant l with Some _ => false | None => true end.
Proof. induction l as [|x l IH]; [reflexivity|]. cbn [forallb first_vacant]. unfold held at 1. destruct (vacant x); [reflexivity|]. cbn [negb andb]. rewrite IH. now destruct (first_vacant l). Qed.
Lemma vacant_below (l : list (slot A)) i : first_vacant l = Some i -> i < length l.
Proof. revert i. induction l as [|x l IH]; intros i; cbn [first_vacant length]; [discriminate|]. destruct (vacant x); [intros E; injection E as <-; lia|]. destruct (first_vacant l) as [j|]; [|discriminate]. intros E. injection E as <-. specialize (IH j eq_refl). lia. Qed.

Lemma op_same p r o r' x : same p r -> row_op stride r o = Done (r', x) -> o <> PClear -> exists p', pool_apply stride p o = Done (p', x) /\ same p' r'.
Proof.
  intros (H & ss & R & C & B) E NC. unfold row_op in E. destruct (sp_apply (per r) (slots r) o) as [[l i]|] eqn:SA; cbn [bind] in E; [|discriminate]. rewrite <- C in SA.
  assert (LR : length (concat ss) = length ss * per r) by (exact (rows_length (per r) ss (rep_rows (per r) p ss R))).
  assert (T : forall at_ i, (exists s, i = snd (sp_take (per r) (concat ss) s)) -> (if length ss * per r <=? i then [at_] else []) = if forallb held (slots r) then [at_] else [] : list N).
  { intros at_ j (s & ->). rewrite <- C, held_full. unfold sp_take. destruct (first_vacant (concat ss)) as [k|] eqn:F; cbn [snd]; [apply vacant_below in F; now replace (length ss * per r <=? k) with false by lia|].
    rewrite LR. now rewrite Nat.leb_refl. }
  destruct o; cbn [sp_apply pool_apply bind] in *; [| | | | | |contradiction].
  - pose proof (Allocate_rep (per r) stride H p ss a at_ R) as D. pose proof (T at_ (snd (sp_take (per r) (concat ss) (Live a))) ltac:(eauto)) as TT. destruct (sp_take (per r) (concat ss) (Live a)) as [l1 k]. cbn [snd] in TT.
    destruct D as (p' & ss' & -> & R' & C' & B'). rewrite TT, B in B'. injection SA as <- <-. injection E as <- <-. cbn [bind option_map]. exists p'. split; [unfold home; cbn [per homes]; rewrite <- B'; reflexivity|].
    split; [exact H|]. exists ss'. split; [exact R' | split; [exact C' | exact B']].
  - pose proof (Allocate_defer_rep (per r) stride H p ss at_ R) as D. pose proof (T at_ (snd (sp_take (per r) (concat ss) Deferred)) ltac:(eauto)) as TT. destruct (sp_take (per r) (concat ss) Deferred) as [l1 k]. cbn [snd] in TT.
    destruct D as (p' & ss' & -> & R' & C' & B' & _). rewrite TT, B in B'. injection SA as <- <-. injection E as <- <-. cbn [bind option_map]. exists p'. split; [unfold home; cbn [per homes]; rewrite <- B'; reflexivity|].
    split; [exact H|]. exists ss'. split; [exact R' | split; [exact C' | exact B']].
  - destruct (nth_error (concat ss) i0) as [[| |]|] eqn:N; try discriminate. injection SA as <- <-. injection E as <- <-. destruct (user_construct_rep (per r) H p ss i0 a R N) as (p' & ss' & -> & R' & C' & B').
    exists p'. split; [reflexivity|]. split; [exact H|]. exists ss'. split; [exact R' | split; [exact C' | cbn [homes]; congruence]].
  - destruct (nth_error (concat ss) i0) as [[| |]|] eqn:N; try discriminate. injection SA as <- <-. injection E as <- <-. destruct (user_destroy_rep (per r) H p ss i0 a R N) as (p' & ss' & -> & R' & C' & B').
    exists p'. split; [reflexivity|]. split; [exact H|]. exists ss'. split; [exact R' | split; [exact C' | cbn [homes]; congruence]].
  - destruct (nth_error (concat ss) i0) as [[| |]|] eqn:N; try discriminate. injection SA as <- <-. injection E as <- <-. destruct (Free_rep (per r) stride H p ss i0 a R N) as (p' & ss' & -> & R' & C' & B').
    exists p'. split; [reflexivity|]. split; [exact H|]. exists ss'. split; [exact R' | split; [exact C' | cbn [homes]; congruence]].
  - destruct (nth_error (concat ss) i0) as [[| |]|] eqn:N; try discriminate. injection SA as <- <-. injection E as <- <-. destruct (Free_nodestruction_rep (per r) H p ss i0 R N) as (p' & ss' & -> & R' & C' & B').
    exists p'. split; [reflexivity|]. split; [exact H|]. exists ss'. split; [exact R' | split; [exact C' | cbn [homes]; congruence]].
Qed.

Lemma same_some st s d r : related st s -> rows s d = Some r -> exists p, vars st d = Some p /\ same p r.
Proof. intros [V _] E. specialize (V d). rewrite E in V. destruct (vars st d) as [p|]; [eauto | contradiction]. Qed.
Lemma same_none st s d : related st s -> rows s d = None -> vars st d = None.
Proof. intros [V _] E. specialize (V d). rewrite E in V. now destruct (vars st d). Qed.

Lemma clear_same p r : same p r -> sp_settled (slots r) = true -> clearable r = true -> exists dropped, Clear p = Done (MP (m_blockSize p) [], dropped) /\ pool_destroy p = Done dropped /\ objects dropped = [].
Proof.
  intros (H & ss & R & C & B) S Q. apply (clearable_iff r H) in Q. rewrite <- C in S, Q. destruct (Clear_rep (per r) H p ss R S Q) as (d & E1 & E2 & W & _). exists d.
  pose proof R as (PB & _). split; [rewrite PB; exact E1|]. split; [exact E2|]. exact (objects_raw _ d W).
Qed.

Lemma assign_same st s d e t r : related st s -> rows s d = Some t -> rows s e = Some r -> exists st', q_assign st d e = Done st' /\
  related st' (RS (if Nat.eq_dec d e then set (rows s) d (Some (blank t)) else set (set (rows s) e (Some (blank r))) d (Some r)) (forgotten s ++ lives (slots t))).
Proof.
  intros R ED EE. destruct (same_some st s d t R ED) as (p & VD & SD). destruct (same_some st s e r R EE) as (q & VE & SE). destruct R as [V L]. unfold q_assign. rewrite VD, VE.
  assert (O : objects (m_blocks p) = map Some (lives (slots t))) by (destruct SD as (_ & ss & RD & <- & _); exact (objects_rep _ p ss RD)).
  destruct (Nat.eqb_spec d e) as [->|N]; destruct (Nat.eq_dec _ _) as [Q|Q]; try contradiction.
  - eexists. split; [reflexivity|]. split; [|cbn [lost forgotten]; rewrite map_app, L, O; reflexivity]. cbn [vars rows]. apply put_set; [exact V|]. exact (same_blank p t SD).
  - cbn [pool_move_assign]. eexists. split; [reflexivity|]. split; [|cbn [lost forgotten]; rewrite map_app, L, O; reflexivity]. cbn [vars rows]. apply put_set; [|exact SE]. apply put_set; [exact V | exact (same_blank q r SE)].
Qed.

Lemma step_same st s o s' x : related st s -> sized o -> rstep stride s o = Done (s', x) -> exists st', qstep stride st o = Done (st', x) /\ related st' s'.
Proof.
  intros R Z E. destruct o as [d n at_|d o|d e|d e|a b|d]; cbn [rstep] in E.
  - destruct (rows s d) eqn:RD; [discriminate|]. injection E as <- <-. cbn [qstep]. rewrite (same_none st s d R RD). destruct (@pool_new_rep A n at_) as (p & -> & RP & BP). cbn [bind].
    eexists. split; [reflexivity|]. destruct R as [V L]. split; [|exact L]. cbn [vars rows]. apply put_set; [exact V|]. split; [exact Z|]. exists [repeat Vacant n]. split; [exact RP|]. split; [apply app_nil_r | exact BP].
  - destruct (rows s d) as [r|] eqn:RD; [|discriminate]. destruct (same_some st s d r R RD) as (p & VD & SD). destruct (row_op stride r o) as [[r' y]|] eqn:RO; cbn [bind] in E; [|discriminate]. injection E as <- <-.
    cbn [qstep]. rewrite VD. destruct R as [V L]. destruct (match o with PClear => true | _ => false end) eqn:IC.
    + destruct o; try discriminate. unfold row_op in RO. cbn [sp_apply] in RO. destruct (sp_settled (slots r)) eqn:S; cbn [bind] in RO; [|discriminate]. destruct (clearable r) eqn:Q; cbn [bind] in RO; [|discriminate]. injection RO as <- <-.
      destruct (clear_same p r SD S Q) as (dr & -> & _ & OD). cbn [bind]. eexists. split; [reflexivity|]. split; [|cbn [lost forgotten]; now rewrite OD, app_nil_r]. cbn [vars rows]. apply put_set; [exact V|]. exact (same_blank p r SD).
    + assert (NC : o <> PClear) by (intros ->; discriminate). destruct (op_same p r o r' y SD RO NC) as (p' & EP & SP).
      assert (G : match o with PClear => ' (p, dropped) <- Clear p ;; Done (PS (put (vars st) d (Some p)) (lost st ++ objects dropped), None) | _ => ' (p, r) <- pool_apply stride p o ;; Done (PS (put (vars st) d (Some p)) (lost st), r) end
        = Done (PS (put (vars st) d (Some p')) (lost st), y)) by (destruct o; try discriminate; now rewrite EP).
      rewrite G. eexists. split; [reflexivity|]. split; [|exact L]. cbn [vars rows]. apply put_set; [exact V | exact SP].
  - destruct (rows s d) eqn:RD; [discriminate|]. destruct (rows s e) as [r|] eqn:RE; [|discriminate]. injection E as <- <-. cbn [qstep]. rewrite (same_none st s d R RD). destruct (same_some st s e r R RE) as (q & VE & SE). rewrite VE.
    cbn [pool_move]. eexists. split; [reflexivity|]. destruct R as [V L]. split; [|exact L]. cbn [vars rows]. apply put_set; [|exact SE]. apply put_set; [exact V | exact (same_blank q r SE)].
  - destruct (rows s d) as [t|] eqn:RD; [|discriminate]. destruct (rows s e) as [r|] eqn:RE; [|discriminate]. injection E as <- <-. destruct (assign_same st s d e t r R RD RE) as (st' & EA & R'). cbn [qstep]. rewrite EA. cbn [bind]. eauto.
  - destruct (rows s a) as [r|] eqn:RA; [|discriminate]. destruct (rows s b) as [t|] eqn:RB; [|discriminate]. injection E as <- <-. cbn [qstep].
    destruct (same_some st s a r R RA) as (p & VA & SA). destruct (same_some st s b t R RB) as (q & VB & SB). rewrite VA, VB. cbn [pool_move]. destruct R as [V L].
    unfold q_assign. cbn [vars lost]. unfold put at 1. rewrite Nat.eqb_refl. unfold put at 1. destruct (Nat.eqb_spec b a) as [->|N].
    + rewrite Nat.eqb_refl. cbn [m_blocks m_blockSize bind vars lost]. unfold put at 1. rewrite Nat.eqb_refl. cbn [pool_move_assign m_blocks]. unfold pool_destroy, Reset. cbn [m_blocks reset_blocks bind].
      eexists. split; [reflexivity|]. cbn [objects flat_map app]. split; [|cbn [lost forgotten]; now rewrite !app_nil_r]. cbn [vars rows]. assert (r = t) as -> by congruence. intros k.
      unfold put, set. destruct (Nat.eqb_spec k a), (Nat.eq_dec k a); try contradiction; [exact SA | exact (V k)].
    + rewrite VB. destruct (Nat.eqb_spec a b) as [->|_]; [contradiction|]. cbn [pool_move_assign m_blocks m_blockSize bind vars lost]. unfold put at 1. destruct (Nat.eqb_spec b a) as [->|_]; [contradiction|].
      unfold put at 1. rewrite Nat.eqb_refl. unfold pool_destroy, Reset. cbn [m_blocks reset_blocks bind].
      eexists. split; [reflexivity|]. cbn [objects flat_map app]. split; [|cbn [lost forgotten]; now rewrite !app_nil_r]. cbn [vars rows]. intros k.
      unfold put, set. destruct (Nat.eqb_spec k b), (Nat.eq_dec k b); try contradiction; [exact SA|]. destruct (Nat.eqb_spec k a), (Nat.eq_dec k a); try contradiction; [exact SB | exact (V k)].
  - destruct (rows s d) as [r|] eqn:RD; [|discriminate]. destruct (same_some st s d r R RD) as (p & VD & SD). destruct (sp_settled (slots r)) eqn:S; [|discriminate]. destruct (clearable r) eqn:Q; [|discriminate]. injection E as <- <-.
    destruct (clear_same p r SD S Q) as (dr & _ & ED & OD). cbn [qstep]. rewrite VD, ED. cbn [bind]. destruct R as [V L]. eexists. split; [reflexivity|]. split; [|cbn [lost forgotten]; now rewrite OD, app_nil_r].
    cbn [vars rows]. apply put_set; [exact V | exact Logic.I].
Qed.

Lemma run_same ops : forall st s s' rs, related st s -> Forall sized ops -> rrun stride s ops = Done (s', rs) -> exists st', qrun stride st ops = Done (st', rs) /\ related st' s'.
Proof.
  induction ops as [|o ops IH]; intros st s s' rs R Z E; cbn [rrun qrun] in *; [injection E as <- <-; eauto|]. inversion Z as [|? ? Z1 Z2]; subst.
  destruct (rstep stride s o) as [[s1 x]|] eqn:E1; cbn [bind] in E; [|discriminate]. destruct (rrun stride s1 ops) as [[s2 xs]|] eqn:E2; cbn [bind] in E; [|discriminate]. injection E as <- <-.
  destruct (step_same st s o s1 x R Z1 E1) as (st1 & -> & R1). cbn [bind]. destruct (IH st1 s1 s2 xs R1 Z2 E2) as (st2 & -> & R2). cbn [bind]. eauto.
Qed.
Lemma start_same : related pools_start rows_start.
Proof. split; [intros d; exact Logic.I | reflexivity]. Qed.
End Proofs.

(** *** C146 *)
(** What can be observed of a pool says the row: counters, addresses, objects, iteration. *)
Definition shows {A} stride (p : @pool A) (r : row A) : Prop :=
  m_blockSize p = per r /\ GetAllocatedEntryCount p = length (filter held (slots r)) /\ GetBlockCount p = length (homes r) /\
  (forall i, RetrieveFromIndex stride p i = match nth_error (slots r) i with Some Vacant | None => Fault FAssert | Some _ => Done (home stride r i) end) /\
  (forall i a, nth_error (slots r) i = Some (Live a) -> object p i = Done (Some a)) /\
  pool_iterate stride p = Done (map (fun i => (i, home stride r i)) (filter (fun i => held (nth i (slots r) Vacant)) (seq 0 (length (slots r))))).
Definition all_show {A} stride (st : @pstate A) (s : rstate A) : Prop :=
  (forall d, match vars st d, rows s d with Some p, Some r => shows stride p r | None, None => True | _, _ => False end) /\ lost st = map Some (forgotten s).

Lemma related_shows {A} stride (st : @pstate A) s : related st s -> all_show stride st s.
Proof.
  intros [V L]. split; [|exact L]. intros d. specialize (V d). unfold same_var in V. destruct (vars st d) as [p|], (rows s d) as [r|]; auto. destruct V as (H & ss & R & C & B). unfold shows. rewrite <- C.
  split; [apply R|]. split; [exact (allocated_rep (per r) H p ss R)|]. split; [unfold GetBlockCount; rewrite <- B; unfold bases; now rewrite map_length|].
  split; [|split].
  - intros i. rewrite (Retrieve_rep (per r) stride H p ss i R). unfold home. rewrite <- B. destruct (nth_error (concat ss) i) as [[| |]|]; reflexivity.
  - intros i a N. exact (object_rep (per r) H p ss i a R N).
  - rewrite (iterate_rep stride (per r) H p ss R), B. reflexivity.
Qed.

(** Every program the rows allow does what they say, with the same indices and addresses, and loses exactly the same objects. *)
Theorem C146_history : forall (A : Type) stride (ops : list (@qop A)) s rs, Forall sized ops -> rrun stride rows_start ops = Done (s, rs) ->
  exists st, qrun stride pools_start ops = Done (st, rs) /\ all_show stride st s.
Proof. intros A stride ops s rs Z E. destruct (run_same stride ops pools_start rows_start s rs start_same Z E) as (st & EQ & R). exists st. split; [exact EQ | exact (related_shows stride st s R)]. Qed.
Print Assumptions C146_history.

(** Move construction and swapping: the entries keep index, object and address. *)
Theorem C146_moves : forall (A : Type) stride (st : @pstate A),
  (forall d e p, vars st d = None -> vars st e = Some p -> exists st', qstep stride st (QMove d e) = Done (st', None) /\ lost st' = lost st /\ vars st' d = Some p /\
     (exists q, vars st' e = Some q /\ GetAllocatedEntryCount q = 0 /\ GetBlockCount q = 0 /\ forall i j, GetAllocatedPointer stride q i j = Fault FAssert) /\ forall k, k <> d -> k <> e -> vars st' k = vars st k) /\
  (forall a b p q, vars st a = Some p -> vars st b = Some q -> exists st', qstep stride st (QSwap a b) = Done (st', None) /\ lost st' = lost st /\ vars st' a = Some q /\ vars st' b = Some p /\
     forall k, k <> a -> k <> b -> vars st' k = vars st k).
Proof.
  intros A stride st. split.
  - intros d e p VD VE. cbn [qstep]. rewrite VD, VE. cbn [pool_move]. assert (N : d <> e) by congruence. eexists. split; [reflexivity|]. cbn [lost vars]. split; [reflexivity|]. unfold put.
    rewrite Nat.eqb_refl. split; [reflexivity|]. split.
    + replace (e =? d) with false by (symmetry; now apply Nat.eqb_neq; auto). rewrite Nat.eqb_refl. eexists. split; [reflexivity|]. split; [reflexivity|]. split; [reflexivity|]. intros i j. reflexivity.
    + intros k K1 K2. destruct (Nat.eqb_spec k d); [contradiction|]. destruct (Nat.eqb_spec k e); [contradiction | reflexivity].
  - intros a b p q VA VB. cbn [qstep]. rewrite VA, VB. cbn [pool_move]. unfold q_assign. cbn [vars lost]. unfold put at 1. rewrite Nat.eqb_refl. unfold put at 1. destruct (Nat.eqb_spec b a) as [->|N].
    + rewrite Nat.eqb_refl. cbn [m_blocks m_blockSize bind vars lost]. unfold put at 1. rewrite Nat.eqb_refl. cbn [pool_move_assign m_blocks]. unfold pool_destroy, Reset. cbn [m_blocks reset_blocks bind].
      eexists. split; [reflexivity|]. cbn [objects flat_map app lost vars]. rewrite !app_nil_r. split; [reflexivity|]. unfold put. rewrite Nat.eqb_refl. split; [congruence|]. split; [reflexivity|].
      intros k K _. destruct (Nat.eqb_spec k a); [contradiction | reflexivity].
    + rewrite VB. destruct (Nat.eqb_spec a b) as [->|_]; [contradiction|]. cbn [pool_move_assign m_blocks m_blockSize bind vars lost]. unfold put at 1. destruct (Nat.eqb_spec b a) as [->|_]; [contradiction|].
      unfold put at 1. rewrite Nat.eqb_refl. unfold pool_destroy, Reset. cbn [m_blocks reset_blocks bind].
      eexists. split; [reflexivity|]. cbn [objects flat_map app lost vars]. rewrite !app_nil_r. split; [reflexivity|]. unfold put. rewrite !Nat.eqb_refl. destruct (Nat.eqb_spec a b) as [->|_]; [contradiction|].
      split; [reflexivity|]. split; [reflexivity|]. intros k K1 K2. destruct (Nat.eqb_spec k a); [contradiction|]. destruct (Nat.eqb_spec k b); [contradiction | reflexivity].
Qed.
Print Assumptions C146_moves.

(** Objects are lost only by move assignment: exactly those the target held, and with a pool assigned to itself all of them. *)
Definition harmless {A} (s : rstate A) (o : @qop A) : Prop := match o with QAssign d _ => match rows s d with Some t => lives (slots t) = [] | None => True end | _ => True end.
Fixpoint all_harmless {A} (stride : N) (s : rstate A) (ops : list (@qop A)) : Prop :=
  match ops with
  | [] => True
  | o :: ops => harmless s o /\ match rstep stride s o with Done (s, _) => all_harmless stride s ops | Fault _ => True end
  end.
Theorem C146_nothing_lost : forall (A : Type) stride (ops : list (@qop A)) s rs, Forall sized ops -> rrun stride rows_start ops = Done (s, rs) ->
  forall st, qrun stride pools_start ops = Done (st, rs) -> (lost st = [] <-> all_harmless stride rows_start ops).
Proof.
  intros A stride ops s rs Z E st EQ. destruct (C146_history A stride ops s rs Z E) as (st' & EQ' & _ & L). rewrite EQ in EQ'. injection EQ' as <-. rewrite L.
  enough (G : forall ops (s0 s : rstate A) rs, rrun stride s0 ops = Done (s, rs) -> exists more, forgotten s = forgotten s0 ++ more /\ (more = [] <-> all_harmless stride s0 ops)).
  { destruct (G ops rows_start s rs E) as (more & F & I). cbn [rows_start forgotten app] in F. rewrite F, <- I. split; [intros M; now destruct more | now intros ->]. }
  clear. induction ops as [|o ops IH]; intros s0 s rs E; cbn [rrun all_harmless] in *; [injection E as <- <-; exists []; rewrite app_nil_r; tauto|].
  destruct (rstep stride s0 o) as [[s1 x]|] eqn:E1; cbn [bind] in E; [|discriminate]. destruct (rrun stride s1 ops) as [[s2 xs]|] eqn:E2; cbn [bind] in E; [|discriminate]. injection E as <- <-.
  destruct (IH s1 s2 xs E2) as (more & F & I).
  assert (S : exists m, forgotten s1 = forgotten s0 ++ m /\ (m = [] <-> harmless s0 o)).
  { destruct o as [d n at_|d o|d e|d e|a b|d]; cbn [rstep harmless] in *.
    - destruct (rows s0 d); [discriminate|]. injection E1 as <- <-. exists []. rewrite app_nil_r. tauto.
    - destruct (rows s0 d) as [r|]; [|discriminate]. destruct (row_op stride r o) as [[r' y]|]; cbn [bind] in E1; [|discriminate]. injection E1 as <- <-. exists []. rewrite app_nil_r. tauto.
    - destruct (rows s0 d); [discriminate|]. destruct (rows s0 e); [|discriminate]. injection E1 as <- <-. exists []. rewrite app_nil_r. tauto.
    - destruct (rows s0 d) as [t|]; [|discriminate]. destruct (rows s0 e); [|discriminate]. injection E1 as <- <-. exists (lives (slots t)). tauto.
    - destruct (rows s0 a); [|discriminate]. destruct (rows s0 b); [|discriminate]. injection E1 as <- <-. exists []. rewrite app_nil_r. tauto.
    - destruct (rows s0 d) as [r|]; [|discriminate]. destruct (sp_settled (slots r)); [|discriminate]. destruct (clearable r); [|discriminate]. injection E1 as <- <-. exists []. rewrite app_nil_r. tauto. }
  destruct S as (m & F1 & I1). exists (m ++ more). rewrite F, F1, app_assoc. split; [reflexivity|]. rewrite <- I, <- I1. split; [apply app_eq_nil | now intros [-> ->]].
Qed.
Print Assumptions C146_nothing_lost.
Theorem C146_assign_refuted : forall (A : Type) stride (ops : list (@qop A)) s rs st, Forall sized ops -> rrun stride rows_start ops = Done (s, rs) -> qrun stride pools_start ops = Done (st, rs) ->
  forall d e t, rows s d = Some t -> rows s e <> None -> exists st', qstep stride st (QAssign d e) = Done (st', None) /\ lost st' = lost st ++ map Some (lives (slots t)) /\
    (d = e -> exists q, vars st' d = Some q /\ GetAllocatedEntryCount q = 0 /\ GetBlockCount q = 0) /\ (d <> e -> vars st' d = vars st e).
Proof.
  intros A stride ops s rs st Z E EQ d e t RD NE. destruct (rows s e) as [r|] eqn:RE; [|contradiction]. destruct (run_same stride ops pools_start rows_start s rs start_same Z E) as (st0 & EQ0 & R).
  rewrite EQ in EQ0. injection EQ0 as <-. destruct (assign_same st s d e t r R RD RE) as (st' & EA & _ & L'). exists st'. cbn [qstep]. rewrite EA. split; [reflexivity|].
  split; [rewrite L'; cbn [forgotten]; rewrite map_app; f_equal; symmetry; apply R|]. destruct (same_some st s d t R RD) as (p & VD & _). destruct (same_some st s e r R RE) as (q & VE & _).
  unfold q_assign in EA. rewrite VD, VE in EA. destruct (Nat.eqb_spec d e) as [->|N].
  - injection EA as <-. split; [|congruence]. intros _. cbn [vars]. unfold put. rewrite Nat.eqb_refl. eexists. split; [reflexivity|]. split; reflexivity.
  - cbn [pool_move_assign] in EA. injection EA as <-. split; [congruence|]. intros _. cbn [vars]. unfold put. rewrite Nat.eqb_refl. now rewrite VE.
Qed.
Print Assumptions C146_assign_refuted.

(** Two pools, an exchange, a move, ends: the object 5 at address 200 is reached through three variables in turn, and nothing is lost. *)
Definition tour : list (@qop N) := [QNew 0 2 100; QNew 1 3 200; QOp 0 (PAlloc 4 0); QOp 1 (PAlloc 5 0); QSwap 0 1; QMove 2 0; QOp 0 (PAlloc 6 300); QOp 2 (PFree 0); QEnd 0; QEnd 1; QEnd 2]%N.
Example tour_runs : Forall sized tour /\ all_harmless 8 rows_start tour /\
  (exists s, rrun 8 rows_start tour = Done (s, [None; None; Some (0, 100%N); Some (0, 200%N); None; None; Some (0, 300%N); None; None; None; None]) /\ forgotten s = []) /\
  exists st, qrun 8 pools_start tour = Done (st, [None; None; Some (0, 100%N); Some (0, 200%N); None; None; Some (0, 300%N); None; None; None; None]) /\ lost st = [].
Proof.
  split; [repeat constructor|]. split; [vm_compute; tauto|]. split; [eexists; split; [vm_compute; reflexivity | reflexivity]|]. eexists. split; [vm_compute; reflexivity | reflexivity].
Qed.
Example assigned_over : exists s, rrun 8 rows_start [QNew 0 2 100; QNew 1 2 200; QOp 0 (PAlloc 4 0); QOp 1 (PAlloc 5 0); QAssign 0 1; QAssign 0 0]%N = Done (s, [None; None; Some (0, 100%N); Some (0, 200%N); None; None]) /\ forgotten s = [4; 5]%N.
Proof. eexists. split; [vm_compute; reflexivity | reflexivity]. Qed.
