(** Common vocabulary of the model: outcomes of a C++ call, counted loops, list updates.
    Nothing here is specific to one header of /repo. *)
From Coq Require Export List Arith NArith ZArith Lia Bool.
From Coq Require Export ZifyBool ZifyNat ZifyN.
Export ListNotations.

(** ** Outcomes
    [FAssert]  a NazaraAssert / NazaraAssertMsg condition is false (Assert.hpp)
    [FUB]      undefined behaviour: out of range access, over-long shift, null or dead object...
    [FThrow]   a C++ exception leaves the function
    [FDiverge] the loop fuel of the model is exhausted (the C++ loop does not terminate)
    [FTerminate] std::terminate is called (an exception leaves a noexcept function) *)
Inductive fault := FAssert | FUB | FThrow | FDiverge | FTerminate.

Inductive outcome (A : Type) := Done (a : A) | Fault (f : fault).
Arguments Done {A} a.
Arguments Fault {A} f.

Definition bind {A B} (x : outcome A) (f : A -> outcome B) : outcome B :=
  match x with Done a => f a | Fault e => Fault e end.

Declare Scope outcome_scope.
Delimit Scope outcome_scope with outcome.
Notation "x <- e ;; k" := (bind e (fun x => k))
  (at level 61, e at next level, right associativity) : outcome_scope.
Notation "' p <- e ;; k" := (bind e (fun p => k))
  (at level 61, p pattern, e at next level, right associativity) : outcome_scope.
Notation "e ;;; k" := (bind e (fun _ => k)) (at level 61, right associativity) : outcome_scope.
Open Scope outcome_scope.

Definition assert (c : bool) : outcome unit := if c then Done tt else Fault FAssert.
(** A requirement whose violation is undefined behaviour. *)
Definition require (c : bool) : outcome unit := if c then Done tt else Fault FUB.

Definition is_done {A} (x : outcome A) : bool := match x with Done _ => true | Fault _ => false end.

(** Counted loop [for (i : l) s = f(s, i)]. *)
Fixpoint foreach {S} (l : list nat) (f : S -> nat -> outcome S) (s : S) : outcome S :=
  match l with
  | [] => Done s
  | i :: r => bind (f s i) (foreach r f)
  end.

(** [for (i = a; i < b; ++i)] *)
Definition range (a b : nat) : list nat := seq a (b - a).

(** [vector[i]] with an out of range index being undefined behaviour. *)
Definition vget {A} (l : list A) (i : nat) : outcome A :=
  match nth_error l i with Some x => Done x | None => Fault FUB end.

Fixpoint upd {A} (l : list A) (i : nat) (x : A) : list A :=
  match l, i with
  | [], _ => []
  | _ :: r, O => x :: r
  | y :: r, S j => y :: upd r j x
  end.

Definition vset {A} (l : list A) (i : nat) (x : A) : outcome (list A) :=
  if i <? length l then Done (upd l i x) else Fault FUB.

(** [std::vector::resize(n, v)] on the contents. *)
Definition vresize {A} (l : list A) (n : nat) (v : A) : list A :=
  firstn n l ++ repeat v (n - length l).

(** ** Lemmas *)
Lemma bind_done {A B} (x : outcome A) (f : A -> outcome B) b :
  bind x f = Done b -> exists a, x = Done a /\ f a = Done b.
Proof. destruct x as [a|e]; simpl; intros H; [eauto | discriminate]. Qed.

Lemma bind_assoc {A B C} (x : outcome A) (f : A -> outcome B) (g : B -> outcome C) :
  bind (bind x f) g = bind x (fun a => bind (f a) g).
Proof. destruct x; reflexivity. Qed.

Lemma foreach_app {S} l1 l2 (f : S -> nat -> outcome S) s :
  foreach (l1 ++ l2) f s = bind (foreach l1 f s) (foreach l2 f).
Proof.
  revert s; induction l1 as [|i l1 IH]; intros s; simpl; [reflexivity|].
  destruct (f s i); simpl; auto.
Qed.

(** Loop rule: [P k s] holds before processing the element number [k]. *)
Lemma foreach_inv {S} (P : nat -> S -> Prop) (f : S -> nat -> outcome S) l :
  forall s, P 0 s ->
  (forall k s, k < length l -> P k s -> exists s', f s (nth k l 0) = Done s' /\ P (k + 1) s') ->
  exists s', foreach l f s = Done s' /\ P (length l) s'.
Proof.
  revert P; induction l as [|i l IH]; intros P s H0 Hs; simpl.
  - eauto.
  - destruct (Hs 0 s) as (s1 & E1 & P1); [simpl; lia | assumption |].
    simpl in E1. rewrite E1. simpl.
    destruct (IH (fun k => P (Datatypes.S k)) s1) as (s2 & E2 & P2).
    + exact P1.
    + intros k s' Hk HP. destruct (Hs (Datatypes.S k) s') as (s3 & E3 & P3); [simpl; lia | assumption |].
      exists s3. split; [exact E3 | replace (Datatypes.S (k + 1)) with (Datatypes.S k + 1) by lia; exact P3].
    + eauto.
Qed.

Lemma range_length a b : length (range a b) = b - a.
Proof. apply seq_length. Qed.

Lemma nth_range a b k : k < b - a -> nth k (range a b) 0 = a + k.
Proof. intros H; unfold range; now apply seq_nth. Qed.

(** The same rule for [for (i = a; i < b; ++i)]: [P i s] holds when the counter is [i]. *)
Lemma foreach_range {S} (P : nat -> S -> Prop) (f : S -> nat -> outcome S) a b s :
  a <= b -> P a s ->
  (forall i s, a <= i < b -> P i s -> exists s', f s i = Done s' /\ P (i + 1) s') ->
  exists s', foreach (range a b) f s = Done s' /\ P b s'.
Proof.
  intros Hab H0 Hs.
  destruct (foreach_inv (fun k => P (a + k)) f (range a b) s) as (s' & E & HP).
  - now rewrite Nat.add_0_r.
  - intros k s' Hk HP. rewrite range_length in Hk. rewrite nth_range by assumption.
    replace (a + (k + 1)) with (a + k + 1) by lia. apply Hs; [lia | assumption].
  - exists s'. split; [exact E|]. rewrite range_length in HP.
    now replace (a + (b - a)) with b in HP by lia.
Qed.

(** Downward loop [for (i = n; i > 0; --i)]. *)
Lemma foreach_down {S} (P : nat -> S -> Prop) (f : S -> nat -> outcome S) n s :
  P n s ->
  (forall i s, 0 < i <= n -> P i s -> exists s', f s i = Done s' /\ P (i - 1) s') ->
  exists s', foreach (rev (seq 1 n)) f s = Done s' /\ P 0 s'.
Proof.
  intros H0 Hs.
  destruct (foreach_inv (fun k => P (n - k)) f (rev (seq 1 n)) s) as (s' & E & HP).
  - now rewrite Nat.sub_0_r.
  - intros k s' Hk HP. rewrite rev_length, seq_length in Hk.
    rewrite rev_nth by (now rewrite seq_length). rewrite seq_length, seq_nth by lia.
    replace (n - (k + 1)) with (1 + (n - Datatypes.S k) - 1) by lia.
    apply Hs; [lia|]. now replace (1 + (n - Datatypes.S k)) with (n - k) by lia.
  - exists s'. split; [exact E|]. rewrite rev_length, seq_length in HP.
    now rewrite Nat.sub_diag in HP.
Qed.

Lemma upd_length {A} (l : list A) i x : length (upd l i x) = length l.
Proof. revert i; induction l as [|y l IH]; intros [|i]; simpl; auto. Qed.

Lemma nth_upd {A} (l : list A) i x d k :
  nth k (upd l i x) d = if (k =? i) && (i <? length l) then x else nth k l d.
Proof.
  revert i k; induction l as [|y l IH]; intros [|i] [|k]; simpl; try reflexivity.
  - now rewrite andb_false_r.
  - rewrite IH. reflexivity.
Qed.

Lemma nth_upd_same {A} (l : list A) i x d : i < length l -> nth i (upd l i x) d = x.
Proof.
  intros H. rewrite nth_upd, Nat.eqb_refl. simpl.
  destruct (Nat.ltb_spec i (length l)); [reflexivity | lia].
Qed.

Lemma nth_upd_other {A} (l : list A) i x d k : k <> i -> nth k (upd l i x) d = nth k l d.
Proof. intros H. rewrite nth_upd. destruct (Nat.eqb_spec k i); [lia | reflexivity]. Qed.

Lemma nth_error_upd {A} (l : list A) i x k :
  nth_error (upd l i x) k = if (k =? i) && (i <? length l) then Some x else nth_error l k.
Proof.
  revert i k; induction l as [|y l IH]; intros [|i] [|k]; simpl; try reflexivity.
  - now rewrite andb_false_r.
  - rewrite IH. reflexivity.
Qed.

Lemma Forall_upd {A} (P : A -> Prop) l i x : Forall P l -> P x -> Forall P (upd l i x).
Proof.
  intros H Hx; revert i; induction H as [|y l Hy Hl IH]; intros [|i]; simpl; constructor; auto.
Qed.

Lemma upd_app {A} (l1 l2 : list A) i x :
  upd (l1 ++ l2) i x = if i <? length l1 then upd l1 i x ++ l2 else l1 ++ upd l2 (i - length l1) x.
Proof.
  revert i; induction l1 as [|y l1 IH]; intros i; simpl.
  - now rewrite Nat.sub_0_r.
  - destruct i as [|i]; simpl; [reflexivity|]. rewrite IH.
    change (S i <? S (length l1)) with (i <? length l1).
    destruct (i <? length l1); reflexivity.
Qed.

Lemma vget_done {A} (l : list A) i d : i < length l -> vget l i = Done (nth i l d).
Proof. intros H; unfold vget. now rewrite (nth_error_nth' l d H). Qed.

Lemma vset_done {A} (l : list A) i x : i < length l -> vset l i x = Done (upd l i x).
Proof. intros H; unfold vset. destruct (Nat.ltb_spec i (length l)); [reflexivity | lia]. Qed.

Lemma list_ext {A} (d : A) l1 l2 :
  length l1 = length l2 -> (forall i, i < length l1 -> nth i l1 d = nth i l2 d) -> l1 = l2.
Proof. intros; eapply nth_ext; eauto. Qed.

Lemma nth_firstn {A} (l : list A) n i d : nth i (firstn n l) d = if i <? n then nth i l d else d.
Proof.
  revert n i; induction l as [|x l IH]; intros [|n] [|i]; simpl; try reflexivity.
  - now destruct (_ <? _).
  - rewrite IH. reflexivity.
Qed.

Lemma nth_skipn {A} (l : list A) n i d : nth i (skipn n l) d = nth (n + i) l d.
Proof.
  revert l; induction n as [|n IH]; intros l; simpl; [reflexivity|].
  destruct l as [|x l]; simpl; [now destruct i | apply IH].
Qed.

Lemma nth_repeat_full {A} (x : A) n i d : nth i (repeat x n) d = if i <? n then x else d.
Proof.
  revert i; induction n as [|n IH]; intros [|i]; simpl; try reflexivity. apply IH.
Qed.

Lemma nth_app_full {A} (l1 l2 : list A) i d :
  nth i (l1 ++ l2) d = if i <? length l1 then nth i l1 d else nth (i - length l1) l2 d.
Proof.
  destruct (Nat.ltb_spec i (length l1)); [now apply app_nth1 | now apply app_nth2].
Qed.

Lemma nth_map_seq {A} (f : nat -> A) n i d : nth i (map f (seq 0 n)) d = if i <? n then f i else d.
Proof.
  destruct (Nat.ltb_spec i n) as [H|H].
  - rewrite (nth_indep _ d (f 0)) by (now rewrite map_length, seq_length).
    rewrite map_nth. now rewrite seq_nth.
  - apply nth_overflow. now rewrite map_length, seq_length.
Qed.

Lemma vresize_length {A} (l : list A) n v : length (vresize l n v) = n.
Proof. unfold vresize. rewrite app_length, firstn_length, repeat_length. lia. Qed.

Lemma nth_vresize {A} (l : list A) n (v : A) i d :
  nth i (vresize l n v) d = if i <? n then (if i <? length l then nth i l d else v) else d.
Proof.
  unfold vresize. rewrite nth_app_full, firstn_length, nth_firstn, nth_repeat_full.
  destruct (Nat.ltb_spec i (Nat.min n (length l))), (Nat.ltb_spec i n), (Nat.ltb_spec i (length l)),
    (Nat.ltb_spec (i - Nat.min n (length l)) (n - length l)); try reflexivity; lia.
Qed.

Lemma Forall_nth_default {A} (P : A -> Prop) l i d : Forall P l -> P d -> P (nth i l d).
Proof.
  intros H Hd. destruct (Nat.lt_ge_cases i (length l)) as [Hi|Hi].
  - rewrite Forall_forall in H. apply H. now apply nth_In.
  - now rewrite nth_overflow.
Qed.

Lemma Forall_of_nth {A} (P : A -> Prop) l d : (forall i, i < length l -> P (nth i l d)) -> Forall P l.
Proof.
  intros H. apply Forall_forall. intros x Hx. destruct (In_nth _ _ d Hx) as (i & Hi & E).
  rewrite <- E. auto.
Qed.

Lemma Forall_vresize {A} (P : A -> Prop) l n v : Forall P l -> P v -> Forall P (vresize l n v).
Proof.
  intros H Hv. apply (Forall_of_nth P _ v). intros i Hi. rewrite vresize_length in Hi.
  rewrite nth_vresize. destruct (i <? n); auto. destruct (i <? length l); auto.
  now apply Forall_nth_default.
Qed.

Global Arguments N.shiftl : simpl never.
Global Arguments N.shiftr : simpl never.
Global Arguments N.pow : simpl never.
Global Arguments N.modulo : simpl never.
Global Arguments N.div : simpl never.
Global Arguments N.land : simpl never.
Global Arguments N.lor : simpl never.
Global Arguments N.lxor : simpl never.
Global Arguments N.testbit : simpl never.
Global Arguments N.mul : simpl never.
Global Arguments N.add : simpl never.
Global Arguments N.sub : simpl never.
Global Arguments N.ones : simpl never.
Global Arguments Z.shiftl : simpl never.
Global Arguments Z.shiftr : simpl never.
Global Arguments Z.pow : simpl never.
Global Arguments Z.modulo : simpl never.
Global Arguments Z.div : simpl never.
Global Arguments Z.land : simpl never.
Global Arguments Z.lor : simpl never.
Global Arguments Z.lxor : simpl never.
Global Arguments Z.testbit : simpl never.
Global Arguments Z.mul : simpl never.
Global Arguments Z.add : simpl never.
Global Arguments Z.sub : simpl never.
Global Arguments Nat.div : simpl never.
Global Arguments Nat.modulo : simpl never.
Global Arguments Nat.land : simpl never.

Lemma nth_map_full {A B} (f : A -> B) l i d d' : nth i (map f l) d = if i <? length l then f (nth i l d') else d.
Proof. revert i; induction l as [|x l IH]; intros [|i]; simpl; try reflexivity. apply IH. Qed.
