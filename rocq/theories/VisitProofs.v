From Coq Require Import Sorted.
From Verif Require Import CellModel BitsetSpec BitsetBits BitsetProofs BitsetFind PoolSpec PoolModel PoolProofs PoolHistory BitsetHistory VisitModel VisitSpec PropPool.
Open Scope nat_scope.

Lemma first_from_spec f from size : match first_from f from size with
  | Some i => from <= i < size /\ f i = true /\ forall j, from <= j < i -> f j = false
  | None => forall j, from <= j < size -> f j = false end.
Proof.
  unfold first_from. remember (size - from) as n eqn:E. revert from E. induction n as [|n IH]; intros from E; cbn [seq find]; [lia|]. destruct (f from) eqn:F.
  - split; [lia|]. split; [exact F|]. lia.
  - specialize (IH (S from) ltac:(lia)). destruct (find f (seq (S from) n)) as [i|].
    + destruct IH as (B & T & M). split; [lia|]. split; [exact T|]. intros j J. destruct (Nat.eq_dec j from) as [->|]; [exact F|apply M; lia].
    + intros j J. destruct (Nat.eq_dec j from) as [->|]; [exact F|apply IH; lia].
Qed.
Lemma find_ext {A} (f g : A -> bool) l : (forall x, f x = g x) -> find f l = find g l.
Proof. intros H. induction l as [|x l IH]; cbn [find]; [reflexivity|]. now rewrite H, IH. Qed.

(** *** Pools *)
Section Pools.
Context {A : Type}.
Variables (stride : N) (bs : nat).
Hypothesis bs_pos : 0 < bs.
Implicit Types (p : @pool A) (l : list (slot A)).
Definition split_at (q : nat) : nat * nat := (q / bs, q mod bs).
Definition next_held l from := first_from (fun i => held (nth i l Vacant)) from (length l).

Lemma next_held_find l from : s_find (map held l) from = next_held l from.
Proof. unfold s_find, next_held, first_from. rewrite map_length. apply find_ext. intros i. unfold sbit. exact (map_nth held l Vacant i). Qed.
Lemma run_app ops ops' : forall p, pool_run stride p (ops ++ ops') = ' (p1, r1) <- pool_run stride p ops ;; ' (p2, r2) <- pool_run stride p1 ops' ;; Done (p2, r1 ++ r2).
Proof.
  induction ops as [|o ops IH]; intros p; cbn [pool_run app bind]; [destruct (pool_run stride p ops') as [[p2 r2]|]; reflexivity|]. destruct (pool_apply stride p o) as [[p1 r]|]; cbn [bind]; [|reflexivity]. rewrite IH. destruct (pool_run stride p1 ops) as [[p2 r2]|]; cbn [bind]; [|reflexivity]. destruct (pool_run stride p2 ops') as [[p3 r3]|]; reflexivity.
Qed.
Lemma sp_run_app n ops ops' : forall l, sp_run n l (ops ++ ops') = ' (l1, r1) <- sp_run n l ops ;; ' (l2, r2) <- sp_run n l1 ops' ;; Done (l2, r1 ++ r2).
Proof.
  induction ops as [|o ops IH]; intros l; cbn [sp_run app bind]; [destruct (sp_run n l ops') as [[l2 r2]|]; reflexivity|]. destruct (sp_apply n l o) as [[l1 r]|]; cbn [bind]; [|reflexivity]. rewrite IH. destruct (sp_run n l1 ops) as [[l2 r2]|]; cbn [bind]; [|reflexivity]. destruct (sp_run n l2 ops') as [[l3 r3]|]; reflexivity.
Qed.
Lemma reached_run p l ops l' rs : reached stride bs p l -> 2 <= bs \/ ~ In PClear ops -> sp_run bs l ops = Done (l', rs) -> exists p' ptrs, pool_run stride p ops = Done (p', ptrs) /\ reached stride bs p' l'.
Proof.
  intros R C E. destruct (reached_rep stride bs bs_pos p l R) as (ss & RP & <-). destruct (pool_history stride bs bs_pos ops p ss l' rs RP E C) as (p' & ss' & ptrs & EP & _). exists p', ptrs. split; [exact EP|].
  destruct R as (at0 & p0 & ops0 & rs0 & ptrs0 & EN & E0 & S0). exists at0, p0, (ops0 ++ ops), (rs0 ++ rs), (ptrs0 ++ ptrs). split; [exact EN|]. rewrite run_app, E0. cbn [bind]. rewrite EP. cbn [bind]. split; [reflexivity|]. rewrite sp_run_app, S0. cbn [bind]. now rewrite E.
Qed.
Lemma reached_first p l : reached stride bs p l -> GetFirstAllocatedEntryFromBlock p 0 = Done (option_map split_at (next_held l 0)).
Proof. intros R. destruct (reached_rep stride bs bs_pos p l R) as (ss & RP & <-). rewrite (first_from_rep bs bs_pos p ss 0 RP), Nat.mul_0_l, next_held_find. reflexivity. Qed.
Lemma reached_next p l q : reached stride bs p l -> q < length l -> GetNextAllocatedEntry p (q / bs) (q mod bs) = Done (option_map split_at (next_held l (q + 1))).
Proof. intros R Q. destruct (reached_rep stride bs bs_pos p l R) as (ss & RP & <-). rewrite (next_rep bs bs_pos p ss q RP Q), next_held_find. reflexivity. Qed.
Lemma reached_pointer p l q : reached stride bs p l -> q < length l -> held (nth q l Vacant) = true -> exists a, GetAllocatedPointer stride p (q / bs) (q mod bs) = Done a.
Proof.
  intros R Q H. destruct (reached_rep stride bs bs_pos p l R) as (ss & RP & <-). pose proof (Retrieve_rep bs stride bs_pos p ss q RP) as E. destruct (nth_error (concat ss) q) as [x|] eqn:N; [|apply nth_error_None in N; lia]. rewrite (nth_error_nth _ _ _ N) in H. rewrite H in E.
  unfold RetrieveFromIndex, split_index in E. destruct RP as (HB & _). rewrite HB in E. replace (negb (bs =? 0)) with true in E by (symmetry; apply Bool.negb_true_iff, Nat.eqb_neq; lia). cbn [require bind] in E. eauto.
Qed.
Lemma reached_size p l : reached stride bs p l -> m_blockSize p = bs.
Proof. intros R. destruct (reached_rep stride bs bs_pos p l R) as (ss & (HB & _) & _). exact HB. Qed.

Variable beh : list nat -> list (pop A).
Hypothesis clearable : 2 <= bs \/ forall tr, ~ In PClear (beh tr).
Lemma visit_refines fuel : forall p l from seen, reached stride bs p l ->
  match sp_visit bs beh fuel l from seen with
  | Done (l', seen') => exists p', pool_visit_loop stride beh fuel p (option_map split_at (next_held l from)) seen = Done (p', seen') /\ reached stride bs p' l'
  | Fault FDiverge => pool_visit_loop stride beh fuel p (option_map split_at (next_held l from)) seen = Fault FDiverge
  | Fault _ => True
  end.
Proof.
  assert (ND : forall l ops, sp_run bs l ops <> Fault FDiverge).
  { intros l ops. revert l. induction ops as [|o ops IH]; intros l E; cbn [sp_run] in E; [discriminate|]. destruct (sp_apply bs l o) as [[l1 r]|f] eqn:F; cbn [bind] in E.
    - destruct (sp_run bs l1 ops) as [[l2 r2]|g] eqn:G; cbn [bind] in E; [discriminate|]. apply (IH l1). rewrite G. injection E as ->. reflexivity.
    - injection E as ->. destruct o; cbn [sp_apply] in F; try (destruct (sp_take bs l _); discriminate); try (destruct (nth_error l i) as [[| |]|]; discriminate). destruct (sp_settled l); discriminate. }
  induction fuel as [|fuel IH]; intros p l from seen R; cbn [sp_visit].
  all: fold (next_held l from); pose proof (first_from_spec (fun i => held (nth i l Vacant)) from (length l)) as F; fold (next_held l from) in F; destruct (next_held l from) as [q|] eqn:E; cbn [option_map pool_visit_loop]; [|eauto].
  - reflexivity.
  - destruct F as (B & T & _). cbn [split_at pool_visit_loop]. unfold split_at. destruct (reached_pointer p l q R) as (a & ->); [lia|exact T|]. cbn [bind]. rewrite (reached_size p l R). replace (q / bs * bs + q mod bs) with q by (pose proof (Nat.div_mod_eq q bs); lia).
    destruct (sp_run bs l (beh (seen ++ [q]))) as [[l1 rs]|f] eqn:S; cbn [bind]; [|destruct f; try exact Logic.I; now apply ND in S].
    assert (CL : 2 <= bs \/ ~ In PClear (beh (seen ++ [q]))) by (destruct clearable as [C|C]; auto). destruct (reached_run p l _ l1 rs R CL S) as (p1 & ptrs & -> & R1). cbn [bind]. destruct (q <? length l1) eqn:LT; [|exact Logic.I]. apply Nat.ltb_lt in LT. rewrite (reached_next p1 l1 q R1 LT). cbn [bind]. exact (IH p1 l1 (q + 1) (seen ++ [q]) R1).
Qed.

(** Strictly increasing, from [from] on. *)
Lemma visit_increases fuel : forall l from seen l' seen', sp_visit bs beh fuel l from seen = Done (l', seen') -> exists new, seen' = seen ++ new /\ StronglySorted lt new /\ Forall (fun i => from <= i) new.
Proof.
  induction fuel as [|fuel IH]; intros l from seen l' seen' E; cbn [sp_visit] in E; pose proof (first_from_spec (fun i => held (nth i l Vacant)) from (length l)) as F; destruct (first_from _ from (length l)) as [q|]; try discriminate.
  1,3: injection E as <- <-; exists []; rewrite app_nil_r; repeat constructor.
  destruct (sp_run bs l (beh (seen ++ [q]))) as [[l1 rs]|]; [|discriminate]. cbn [bind] in E. destruct (q <? length l1); [|discriminate]. apply IH in E. destruct E as (new & -> & S & G). exists (q :: new). rewrite <- app_assoc. split; [reflexivity|]. split.
  - constructor; [exact S|]. eapply Forall_impl; [|exact G]. cbn. lia.
  - constructor; [lia|]. eapply Forall_impl; [|exact G]. cbn. lia.
Qed.

(** An entry the body does not give back. *)
Definition spares (i : nat) (o : pop A) : Prop := o <> PFree i /\ o <> PFreeNoDestruction i /\ o <> PClear.
Lemma take_held l s i : held s = true -> held (nth i l Vacant) = true -> held (nth i (fst (sp_take bs l s)) Vacant) = true.
Proof.
  intros HS H. unfold sp_take. assert (LT : i < length l) by (destruct (Nat.lt_ge_cases i (length l)) as [|G]; [assumption|]; rewrite nth_overflow in H by exact G; discriminate). destruct (first_vacant l) as [k|]; cbn [fst].
  - destruct (nth_error (upd l k s) i) as [x|] eqn:E; [|apply nth_error_None in E; rewrite upd_length in E; lia]. rewrite (nth_error_nth _ _ _ E). rewrite nth_error_upd in E. destruct (Nat.eqb_spec i k) as [->|]; cbn [andb] in E; [rewrite (proj2 (Nat.ltb_lt _ _) LT) in E; injection E as <-; exact HS|]. rewrite (nth_error_nth _ _ _ E) in H. exact H.
  - now rewrite app_nth1.
Qed.
Lemma upd_held l k s i : held s = true \/ i <> k -> held (nth i l Vacant) = true -> held (nth i (upd l k s) Vacant) = true.
Proof.
  intros C H. assert (LT : i < length l) by (destruct (Nat.lt_ge_cases i (length l)) as [|G]; [assumption|]; rewrite nth_overflow in H by exact G; discriminate). destruct (nth_error (upd l k s) i) as [x|] eqn:E; [|apply nth_error_None in E; rewrite upd_length in E; lia].
  rewrite (nth_error_nth _ _ _ E). rewrite nth_error_upd in E. destruct (Nat.eqb_spec i k) as [->|]; cbn [andb] in E; [rewrite (proj2 (Nat.ltb_lt _ _) LT) in E; injection E as <-; destruct C; [assumption|congruence]|]. rewrite (nth_error_nth _ _ _ E) in H. exact H.
Qed.
Lemma apply_held l o l' r i : spares i o -> sp_apply bs l o = Done (l', r) -> held (nth i l Vacant) = true -> held (nth i l' Vacant) = true.
Proof.
  intros (S1 & S2 & S3) E H. destruct o; cbn [sp_apply] in E.
  - pose proof (take_held l (Live a) i eq_refl H) as T. destruct (sp_take bs l (Live a)). injection E as <- _. exact T.
  - pose proof (take_held l Deferred i eq_refl H) as T. destruct (sp_take bs l Deferred). injection E as <- _. exact T.
  - destruct (nth_error l i0) as [[| |]|]; try discriminate. injection E as <- _. apply upd_held; auto.
  - destruct (nth_error l i0) as [[| |]|]; try discriminate. injection E as <- _. apply upd_held; auto.
  - destruct (nth_error l i0) as [[| |]|]; try discriminate. injection E as <- _. apply upd_held; [right; congruence|exact H].
  - destruct (nth_error l i0) as [[| |]|]; try discriminate. injection E as <- _. apply upd_held; [right; congruence|exact H].
  - congruence.
Qed.
Lemma run_held ops i : Forall (spares i) ops -> forall l l' rs, sp_run bs l ops = Done (l', rs) -> held (nth i l Vacant) = true -> held (nth i l' Vacant) = true.
Proof.
  intros F. induction F as [|o ops S F IH]; intros l l' rs E H; cbn [sp_run] in E; [injection E as <- _; exact H|]. destruct (sp_apply bs l o) as [[l1 r]|] eqn:E1; [|discriminate]. cbn [bind] in E. destruct (sp_run bs l1 ops) as [[l2 r2]|] eqn:E2; [|discriminate]. injection E as <- _. exact (IH _ _ _ E2 (apply_held _ _ _ _ _ S E1 H)).
Qed.
Lemma visit_covers fuel i : (forall tr, Forall (spares i) (beh tr)) -> forall l from seen l' seen', sp_visit bs beh fuel l from seen = Done (l', seen') -> from <= i -> held (nth i l Vacant) = true -> In i seen' /\ held (nth i l' Vacant) = true.
Proof.
  intros S. assert (K : forall fuel l from seen l' seen', sp_visit bs beh fuel l from seen = Done (l', seen') -> held (nth i l Vacant) = true -> held (nth i l' Vacant) = true /\ (forall j, In j seen -> In j seen')).
  { clear fuel. induction fuel as [|fuel IH]; intros l from seen l' seen' E H; cbn [sp_visit] in E; destruct (first_from _ from (length l)) as [q|]; try discriminate. 1,3: injection E as <- <-; auto.
    destruct (sp_run bs l (beh (seen ++ [q]))) as [[l1 rs]|] eqn:E1; [|discriminate]. cbn [bind] in E. destruct (q <? length l1); [|discriminate]. destruct (IH _ _ _ _ _ E (run_held _ _ (S _) _ _ _ E1 H)) as (A1 & A2). split; [exact A1|]. intros j J. apply A2, in_or_app. now left. }
  induction fuel as [|fuel IH]; intros l from seen l' seen' E L H; pose proof (K _ _ _ _ _ _ E H) as (KH & _); (split; [|exact KH]); cbn [sp_visit] in E; pose proof (first_from_spec (fun i => held (nth i l Vacant)) from (length l)) as F; destruct (first_from _ from (length l)) as [q|] eqn:FF; try discriminate.
  1,3: assert (LT : i < length l) by (destruct (Nat.lt_ge_cases i (length l)) as [|G]; [assumption|]; rewrite nth_overflow in H by exact G; discriminate); rewrite F in H by lia; discriminate.
  destruct (sp_run bs l (beh (seen ++ [q]))) as [[l1 rs]|] eqn:E1; [|discriminate]. cbn [bind] in E. destruct (q <? length l1) eqn:LT; [|discriminate]. pose proof (run_held _ _ (S _) _ _ _ E1 H) as H1. destruct (Nat.lt_trichotomy i q) as [C|[C|C]].
  - destruct F as (_ & _ & M). rewrite M in H by lia. discriminate.
  - subst q. apply (K _ _ _ _ _ _ E H1). apply in_or_app. right. now left.
  - exact (proj1 (IH _ _ _ _ _ E ltac:(lia) H1)).
Qed.

(** Bodies that do not allocate. *)
Definition allocates (o : pop A) : bool := match o with PAlloc _ _ | PDefer _ => true | _ => false end.
Lemma run_length ops : Forall (fun o => allocates o = false) ops -> forall l l' rs, sp_run bs l ops = Done (l', rs) -> length l' <= length l.
Proof.
  intros F. induction F as [|o ops S F IH]; intros l l' rs E; cbn [sp_run] in E; [injection E as <- _; lia|]. destruct (sp_apply bs l o) as [[l1 r]|] eqn:E1; [|discriminate]. cbn [bind] in E. destruct (sp_run bs l1 ops) as [[l2 r2]|] eqn:E2; [|discriminate]. injection E as <- _. apply IH in E2. enough (length l1 <= length l) by lia. clear - E1 S.
  destruct o; try discriminate; cbn [sp_apply] in E1; try (destruct (nth_error l i) as [[| |]|]; try discriminate; injection E1 as <- _; now rewrite upd_length). destruct (sp_settled l); [|discriminate]. injection E1 as <- _. cbn. lia.
Qed.
Lemma visit_ends : (forall tr, Forall (fun o => allocates o = false) (beh tr)) -> forall fuel l from seen, length l - from <= fuel -> sp_visit bs beh fuel l from seen <> Fault FDiverge.
Proof.
  intros N. assert (ND : forall l ops, sp_run bs l ops <> Fault FDiverge).
  { intros l ops. revert l. induction ops as [|o ops IH]; intros l E; cbn [sp_run] in E; [discriminate|]. destruct (sp_apply bs l o) as [[l1 r]|f] eqn:F; cbn [bind] in E.
    - destruct (sp_run bs l1 ops) as [[l2 r2]|g] eqn:G; cbn [bind] in E; [discriminate|]. apply (IH l1). rewrite G. injection E as ->. reflexivity.
    - injection E as ->. destruct o; cbn [sp_apply] in F; try (destruct (sp_take bs l _); discriminate); try (destruct (nth_error l i) as [[| |]|]; discriminate). destruct (sp_settled l); discriminate. }
  induction fuel as [|fuel IH]; intros l from seen L E; cbn [sp_visit] in E; pose proof (first_from_spec (fun i => held (nth i l Vacant)) from (length l)) as F; destruct (first_from _ from (length l)) as [q|]; try discriminate; [lia|].
  destruct (sp_run bs l (beh (seen ++ [q]))) as [[l1 rs]|f] eqn:E1; cbn [bind] in E.
  - destruct (q <? length l1); [|discriminate]. apply (run_length _ (N _)) in E1. apply IH in E; [exact E|lia].
  - injection E as ->. exact (ND _ _ E1).
Qed.
End Pools.

(** *** Bodies that free what they visit, allocate, or clear *)
Lemma filter_first f from size : filter f (seq from (size - from)) = match first_from f from size with None => [] | Some q => q :: filter f (seq (q + 1) (size - (q + 1))) end.
Proof.
  unfold first_from. remember (size - from) as n eqn:E. revert from E. induction n as [|n IH]; intros from E; cbn [seq find filter]; [reflexivity|]. destruct (f from).
  - f_equal. replace (size - (from + 1)) with n by lia. now rewrite Nat.add_1_r.
  - rewrite IH by lia. reflexivity.
Qed.
Definition freeing {A} (seen : list nat) : list (pop A) := [PFree (last seen 0)].
Lemma free_all {A} bs : forall fuel (l : list (slot A)) from seen, length l - from <= fuel -> sp_settled l = true -> (forall i, i < from -> nth i l Vacant = Vacant) ->
  sp_visit bs freeing fuel l from seen = Done (repeat Vacant (length l), seen ++ filter (fun i => held (nth i l Vacant)) (seq from (length l - from))).
Proof.
  assert (V : forall (l : list (slot A)), (forall i, i < length l -> nth i l Vacant = Vacant) -> l = repeat Vacant (length l)).
  { induction l as [|x l IH]; intros H; [reflexivity|]. cbn [length repeat]. f_equal; [exact (H 0 ltac:(cbn; lia))|]. apply IH. intros i I. exact (H (S i) ltac:(cbn; lia)). }
  assert (VV : forall (l : list (slot A)) from, (forall i, i < from -> nth i l Vacant = Vacant) -> (forall j, from <= j < length l -> held (nth j l Vacant) = false) -> l = repeat Vacant (length l)).
  { intros l from H1 H2. apply V. intros i I. destruct (Nat.lt_ge_cases i from) as [C|C]; [auto|]. specialize (H2 i ltac:(lia)). destruct (nth i l Vacant); try discriminate. reflexivity. }
  induction fuel as [|fuel IH]; intros l from seen L S H; cbn [sp_visit]; rewrite filter_first; pose proof (first_from_spec (fun i => held (nth i l Vacant)) from (length l)) as F; destruct (first_from _ from (length l)) as [q|].
  - lia.
  - rewrite app_nil_r, <- (VV l from H F). reflexivity.
  - destruct F as (B & T & M). unfold freeing at 1. rewrite last_last. cbn [sp_run sp_apply bind]. destruct (nth_error l q) as [x|] eqn:N; [|apply nth_error_None in N; lia]. rewrite (nth_error_nth _ _ _ N) in T.
    assert (exists a, x = Live a) as (a & ->).
    { destruct x as [| |a]; [discriminate| |eauto]. unfold sp_settled in S. rewrite forallb_forall in S. now apply nth_error_In, S in N. }
    cbn [bind]. rewrite upd_length. replace (q <? length l) with true by lia. assert (NU : forall i, nth i (upd l q Vacant) Vacant = if i =? q then Vacant else nth i l Vacant).
    { intros i. destruct (Nat.lt_ge_cases i (length l)) as [LI|LI]; [|rewrite !nth_overflow by (rewrite ?upd_length; lia); now destruct (i =? q)]. destruct (nth_error (upd l q Vacant) i) as [y|] eqn:Y; [|apply nth_error_None in Y; rewrite upd_length in Y; lia].
      rewrite (nth_error_nth _ _ _ Y). rewrite nth_error_upd in Y. destruct (Nat.eqb_spec i q) as [->|]; cbn [andb] in Y; [rewrite (proj2 (Nat.ltb_lt _ _) LI) in Y; now injection Y as <-|]. symmetry. exact (nth_error_nth _ _ _ Y). }
    rewrite IH; rewrite ?upd_length.
    + rewrite <- app_assoc. cbn [app]. do 4 f_equal. apply filter_ext_in. intros i I. apply in_seq in I. rewrite NU. destruct (Nat.eqb_spec i q); [lia|reflexivity].
    + lia.
    + unfold sp_settled in *. rewrite forallb_forall in *. intros y Y. apply In_nth_error in Y. destruct Y as (k & Y). rewrite nth_error_upd in Y. destruct (_ && _)%bool; [now injection Y as <-|]. apply S. exact (nth_error_In _ _ Y).
    + intros i I. rewrite NU. destruct (Nat.eqb_spec i q); [reflexivity|]. destruct (Nat.lt_ge_cases i from) as [C|C]; [auto|]. specialize (M i ltac:(lia)). destruct (nth i l Vacant); try discriminate. reflexivity.
  - rewrite app_nil_r, <- (VV l from H F). reflexivity.
Qed.
Definition spawning {A} (a : A) (at_ : N) (seen : list nat) : list (pop A) := [PAlloc a at_].
Lemma first_vacant_app {A} (xs : list A) m : first_vacant (map Live xs ++ repeat Vacant m) = if m =? 0 then None else Some (length xs).
Proof. induction xs as [|x xs IH]; cbn [map app first_vacant vacant]; [destruct m; reflexivity|]. rewrite IH. destruct (m =? 0); reflexivity. Qed.
Lemma spawn_diverges {A} bs (a : A) at_ : forall fuel (xs : list A) m from seen, from < length xs -> sp_visit bs (spawning a at_) fuel (map Live xs ++ repeat Vacant m) from seen = Fault FDiverge.
Proof.
  induction fuel as [|fuel IH]; intros xs m from seen L; cbn [sp_visit]; set (l := map Live xs ++ repeat Vacant m).
  all: assert (H : held (nth from l Vacant) = true) by (unfold l; rewrite app_nth1 by (now rewrite map_length); destruct (nth_error xs from) as [x|] eqn:E; [|apply nth_error_None in E; lia]; rewrite (nth_error_nth _ _ _ (map_nth_error Live _ _ E)); reflexivity).
  all: assert (LL : length l = length xs + m) by (unfold l; now rewrite app_length, map_length, repeat_length).
  all: pose proof (first_from_spec (fun i => held (nth i l Vacant)) from (length l)) as F; destruct (first_from _ from (length l)) as [q|]; [|rewrite F in H by lia; discriminate].
  - reflexivity.
  - destruct F as (B & T & M). assert (q = from) as -> by (destruct (Nat.eq_dec q from) as [E|]; [exact E|]; rewrite (M from ltac:(lia)) in H; discriminate). unfold spawning at 1. cbn [sp_run sp_apply bind]. unfold sp_take. fold l. unfold l. rewrite first_vacant_app.
    destruct (Nat.eqb_spec m 0) as [->|NM]; cbn [bind].
    + cbn [repeat]. rewrite app_nil_r. change (Live a :: repeat Vacant (bs - 1)) with (map Live [a] ++ repeat Vacant (bs - 1)). rewrite app_assoc, <- map_app. replace (from <? length _) with true by (symmetry; apply Nat.ltb_lt; rewrite app_length, map_length, app_length; cbn; lia). apply IH. rewrite app_length. cbn. lia.
    + destruct m as [|m]; [congruence|]. assert (U : upd (map Live xs ++ repeat Vacant (S m)) (length xs) (Live a) = map Live (xs ++ [a]) ++ repeat Vacant m).
      { clear. induction xs as [|x xs IH]; [reflexivity|]. cbn [map app length upd]. f_equal. exact IH. }
      rewrite U. replace (from <? length _) with true by (symmetry; apply Nat.ltb_lt; rewrite app_length, map_length, app_length; cbn; lia). apply IH. rewrite app_length. cbn. lia.
Qed.

(** *** Bits *)
Section Bits.
Context {w : nat} {Hw : width w}.
Variables (r : nat) (beh : list nat -> list op).
Definition next_bit (l : list bool) from := first_from (fun i => nth i l false) from (length l).
Lemma bit_refines : (forall s tr, wf_run w s (beh tr)) -> forall fuel st s from seen, repr_all w st s ->
  match sb_visit w r beh fuel s from seen with
  | Done (s', seen') => exists st', bit_visit_loop w r beh fuel st (next_bit (s r) from) seen = Done (st', seen') /\ repr_all w st' s'
  | Fault f => bit_visit_loop w r beh fuel st (next_bit (s r) from) seen = Fault f
  end.
Proof.
  intros WF. induction fuel as [|fuel IH]; intros st s from seen R; cbn [sb_visit]; fold (next_bit (s r) from); pose proof (first_from_spec (fun i => nth i (s r) false) from (length (s r))) as F; fold (next_bit (s r) from) in F; destruct (next_bit (s r) from) as [q|]; cbn [bit_visit_loop]; eauto.
  pose proof (run_repr w (beh (seen ++ [q])) st s R (WF _ _)) as RR. destruct (spec_run w s (beh (seen ++ [q]))) as [s1|]; [|now rewrite RR]. destruct RR as (st1 & -> & R1). cbn [bind iter_incr]. rewrite (FindNext_repr w _ _ _ (R1 r)). destruct (q <? length (s1 r)); [|reflexivity]. cbn [bind]. exact (IH st1 s1 (q + 1) (seen ++ [q]) R1).
Qed.
Lemma bits_increase fuel : forall s from seen s' seen', sb_visit w r beh fuel s from seen = Done (s', seen') -> exists new, seen' = seen ++ new /\ StronglySorted lt new /\ Forall (fun i => from <= i) new.
Proof.
  induction fuel as [|fuel IH]; intros s from seen s' seen' E; cbn [sb_visit] in E; pose proof (first_from_spec (fun i => nth i (s r) false) from (length (s r))) as F; destruct (first_from _ from _) as [q|]; try discriminate.
  1,3: injection E as <- <-; exists []; rewrite app_nil_r; repeat constructor.
  destruct (spec_run w s (beh (seen ++ [q]))) as [s1|]; [|discriminate]. destruct (q <? length (s1 r)); [|discriminate]. apply IH in E. destruct E as (new & -> & S & G). exists (q :: new). rewrite <- app_assoc. split; [reflexivity|]. split; constructor; [exact S| |lia|]; (eapply Forall_impl; [|exact G]; cbn; lia).
Qed.
Lemma bits_cover i : (forall s s' tr, spec_run w s (beh tr) = Some s' -> nth i (s r) false = true -> nth i (s' r) false = true) -> forall fuel s from seen s' seen', sb_visit w r beh fuel s from seen = Done (s', seen') -> from <= i -> nth i (s r) false = true -> In i seen' /\ nth i (s' r) false = true.
Proof.
  intros S. assert (K : forall fuel s from seen s' seen', sb_visit w r beh fuel s from seen = Done (s', seen') -> nth i (s r) false = true -> nth i (s' r) false = true /\ (forall j, In j seen -> In j seen')).
  { induction fuel as [|fuel IH]; intros s from seen s' seen' E H; cbn [sb_visit] in E; destruct (first_from _ from _) as [q|]; try discriminate. 1,3: injection E as <- <-; auto.
    destruct (spec_run w s (beh (seen ++ [q]))) as [s1|] eqn:E1; [|discriminate]. destruct (q <? length (s1 r)); [|discriminate]. destruct (IH _ _ _ _ _ E (S _ _ _ E1 H)) as (A1 & A2). split; [exact A1|]. intros j J. apply A2, in_or_app. now left. }
  induction fuel as [|fuel IH]; intros s from seen s' seen' E L H; pose proof (K _ _ _ _ _ _ E H) as (KH & _); (split; [|exact KH]); cbn [sb_visit] in E; pose proof (first_from_spec (fun i => nth i (s r) false) from (length (s r))) as F; destruct (first_from _ from _) as [q|] eqn:FF; try discriminate.
  1,3: assert (LT : i < length (s r)) by (destruct (Nat.lt_ge_cases i (length (s r))) as [|G]; [assumption|]; rewrite nth_overflow in H by exact G; discriminate); rewrite F in H by lia; discriminate.
  destruct (spec_run w s (beh (seen ++ [q]))) as [s1|] eqn:E1; [|discriminate]. destruct (q <? length (s1 r)) eqn:LT; [|discriminate]. pose proof (S _ _ _ E1 H) as H1. destruct (Nat.lt_trichotomy i q) as [C|[C|C]].
  - destruct F as (_ & _ & M). rewrite M in H by lia. discriminate.
  - subst q. apply (K _ _ _ _ _ _ E H1). apply in_or_app. right. now left.
  - exact (proj1 (IH _ _ _ _ _ E ltac:(lia) H1)).
Qed.
Lemma bits_end : (forall s s' tr, spec_run w s (beh tr) = Some s' -> length (s' r) <= length (s r)) -> forall fuel s from seen, length (s r) - from <= fuel -> sb_visit w r beh fuel s from seen <> Fault FDiverge.
Proof.
  intros N. induction fuel as [|fuel IH]; intros s from seen L E; cbn [sb_visit] in E; pose proof (first_from_spec (fun i => nth i (s r) false) from (length (s r))) as F; destruct (first_from _ from _) as [q|]; try discriminate; [lia|].
  destruct (spec_run w s (beh (seen ++ [q]))) as [s1|] eqn:E1; [|discriminate]. destruct (q <? length (s1 r)); [|discriminate]. apply N in E1. apply IH in E; [exact E|lia].
Qed.
End Bits.
