(** Property C69: PrivateImpl. *)
From Verif Require Import Base MovableModel PimplModel.

(** ** The specification: a handle is a value, or empty, or ended *)
Section Spec.
  Context {T : Type} (assignable : bool) (broken : T -> T -> T).
  Definition values := list (option (option T)).
  Definition has (a : values) (h : nat) : Prop := exists x, nth_error a h = Some (Some x).
  Definition full (a : values) (h : nat) : Prop := exists v, nth_error a h = Some (Some (Some v)).
  Definition empty (a : values) (h : nat) : Prop := nth_error a h = Some (Some None).
  (** What the caller must respect. *)
  Definition allowed (o : op T) (a : values) : Prop :=
    match o with
    | ONewNull | ONewPtr _ | ONew _ _ => True
    | OCopy k _ => full a k
    | OMove k | OReset k | ODestroy k => has a k
    | OEmplace h _ _ => empty a h
    | OAssignCopy h k t => has a h /\ full a k /\ (assignable = false -> h <> k)
    | OAssignMove h k => has a h /\ has a k
    end.
  (** The one way to break a state: a copy assignment that has to build a T, and throws. *)
  Definition breaks (o : op T) (a : values) : Prop := match o with OAssignCopy h _ true => assignable = false /\ full a h | _ => False end.
  Definition value_of (a : values) (h : nat) : option T := match nth_error a h with Some (Some x) => x | _ => None end.
  Definition fill (a : values) (t : bool) (v : option T) : values := if t then a else a ++ [Some v].
  Definition put (a : values) (h : nat) (t : bool) (v : option T) : values := if t then a else upd a h (Some v).
  Definition vstep (o : op T) (a : values) : values :=
    match o with
    | ONewNull => a ++ [Some None]
    | ONewPtr v => a ++ [Some (Some v)]
    | ONew v t => fill a t (Some v)
    | OCopy k t => fill a t (value_of a k)
    | OMove k => upd a k (Some None) ++ [Some (value_of a k)]
    | ODestroy h => upd a h None
    | OEmplace h v t => put a h t (Some v)
    | OReset h => upd a h (Some None)
    | OAssignCopy h k t =>
      match value_of a h, value_of a k with
      | Some x, Some v => upd a h (Some (Some (if t then broken x v else v)))
      | _, v => put a h t v
      end
    | OAssignMove h k => upd (upd a k (Some (value_of a h))) h (Some (value_of a k))
    end.
End Spec.
Arguments values T : clear implicits.

(** ** Ownership *)
Definition owns {T} (s : state T) h p := nth_error (handles s) h = Some (Some (Some p)).
Definition alive {T} (s : state T) p := exists v, nth_error (heap s) p = Some (Some v).
(** Handles own live objects, two handles never the same one, and every live object has an owner. *)
Definition owned {T} (s : state T) : Prop :=
  (forall h p, owns s h p -> alive s p) /\ (forall h h' p, owns s h p -> owns s h' p -> h = h') /\ (forall p, alive s p -> exists h, owns s h p).
Definition view {T} (m : list (option T)) (x : option (option nat)) : option (option T) :=
  match x with
  | None => None
  | Some None => Some None
  | Some (Some p) => match nth_error m p with Some (Some v) => Some (Some v) | _ => None end
  end.
(** What the handles hold. *)
Definition contents {T} (s : state T) : values T := map (view (heap s)) (handles s).

Lemma nth_error_push {A} (l : list A) x k : nth_error (l ++ [x]) k = if k =? length l then Some x else nth_error l k.
Proof.
  destruct (Nat.eqb_spec k (length l)) as [->|N]; [rewrite nth_error_app2, Nat.sub_diag by lia; reflexivity|].
  destruct (Nat.lt_ge_cases k (length l)); [now apply nth_error_app1|].
  rewrite (proj2 (nth_error_None l k)) by lia. apply nth_error_None. rewrite app_length. simpl. lia.
Qed.
Lemma nth_error_lt {A} (l : list A) k x : nth_error l k = Some x -> k < length l.
Proof. intros H. apply nth_error_Some. congruence. Qed.
Lemma nth_error_put {A} (l : list A) i x y k : nth_error l i = Some y -> nth_error (upd l i x) k = if k =? i then Some x else nth_error l k.
Proof.
  intros H. rewrite nth_error_upd. rewrite (proj2 (Nat.ltb_lt _ _) (nth_error_lt _ _ _ H)), andb_true_r. reflexivity.
Qed.
Lemma map_upd {A B} (f : A -> B) l i x : map f (upd l i x) = upd (map f l) i (f x).
Proof. revert i; induction l as [|y l IH]; intros [|i]; simpl; congruence. Qed.
Lemma upd_push {A} (l : list A) x y : upd (l ++ [x]) (length l) y = l ++ [y].
Proof. rewrite upd_app, Nat.ltb_irrefl, Nat.sub_diag. reflexivity. Qed.
Lemma ext {A} (l l' : list A) : length l = length l' -> (forall k, nth_error l k = nth_error l' k) -> l = l'.
Proof.
  revert l'; induction l as [|x l IH]; intros [|y l'] L H; try discriminate; [reflexivity|].
  pose proof (H 0) as H0. simpl in H0. injection H0 as ->. f_equal. apply IH; [simpl in L; lia|]. intros k. apply (H (S k)).
Qed.
Lemma map_view {T} (f g : option (option nat) -> option (option T)) l : (forall k x, nth_error l k = Some x -> f x = g x) -> map f l = map g l.
Proof. intros H. apply map_ext_in. intros x I. apply In_nth_error in I as [k E]. eauto. Qed.

Section Steps.
  Context {T : Type}.
  Implicit Types (s : state T) (m : list (option T)) (l : list (option (option nat))).
  Lemma owned_push_null s : owned s -> owned (push s None).
  Proof.
    intros (A & B & C). unfold owned, owns, alive, push in *. cbn [heap handles] in *.
    assert (E : forall h p, nth_error (handles s ++ [Some None]) h = Some (Some (Some p)) <-> nth_error (handles s) h = Some (Some (Some p))).
    { intros h p. rewrite nth_error_push. destruct (Nat.eqb_spec h (length (handles s))) as [->|]; [|tauto].
      split; [discriminate|]. intros H. apply nth_error_lt in H. lia. }
    repeat split.
    - intros h p H. apply E in H. eauto.
    - intros h h' p H H'. apply E in H. apply E in H'. eauto.
    - intros p H. destruct (C p H) as [h Hh]. exists h. now apply E.
  Qed.
  Lemma contents_push_null s : contents (push s None) = contents s ++ [Some None].
  Proof. unfold contents, push. cbn [heap handles]. now rewrite map_app. Qed.
  (** A new object for a handle that holds none. *)
  Definition alloc s h v : state T := mkState (heap s ++ [Some v]) (upd (handles s) h (Some (Some (length (heap s))))).
  Lemma owned_alloc s h v : owned s -> nth_error (handles s) h = Some (Some None) -> owned (alloc s h v).
  Proof.
    intros (A & B & C) Hh. unfold owned, owns, alive, alloc in *. cbn [heap handles] in *.
    repeat split.
    - intros k p. rewrite (nth_error_put _ _ _ _ k Hh), nth_error_push. destruct (Nat.eqb_spec k h) as [->|N]; intros H.
      + injection H as <-. rewrite Nat.eqb_refl. eauto.
      + destruct (A k p H) as [w Hw]. destruct (Nat.eqb_spec p (length (heap s))); eauto.
    - intros k k' p. rewrite !(nth_error_put _ _ _ _ _ Hh). destruct (Nat.eqb_spec k h) as [->|N], (Nat.eqb_spec k' h) as [->|N']; intros H H'; try reflexivity; eauto.
      + injection H as <-. destruct (A _ _ H') as [w Hw]. apply nth_error_lt in Hw. lia.
      + injection H' as <-. destruct (A _ _ H) as [w Hw]. apply nth_error_lt in Hw. lia.
    - intros p [w Hw]. rewrite nth_error_push in Hw. destruct (Nat.eqb_spec p (length (heap s))) as [->|N].
      + exists h. rewrite (nth_error_put _ _ _ _ _ Hh), Nat.eqb_refl. reflexivity.
      + destruct (C p (ex_intro _ w Hw)) as [k Hk]. exists k. rewrite (nth_error_put _ _ _ _ _ Hh). destruct (Nat.eqb_spec k h) as [->|]; congruence.
  Qed.
  Lemma contents_alloc s h v : owned s -> contents (alloc s h v) = upd (contents s) h (Some (Some v)).
  Proof.
    intros (A & _). unfold contents, alloc. cbn [heap handles]. rewrite map_upd. cbn [view]. rewrite nth_error_push, Nat.eqb_refl. f_equal.
    apply map_view. intros k [[p|]|] H; try reflexivity. cbn [view]. destruct (A k p H) as [w Hw]. rewrite nth_error_push.
    destruct (Nat.eqb_spec p (length (heap s))) as [->|]; [|reflexivity]. apply nth_error_lt in Hw. lia.
  Qed.
  (** The object of a handle is destroyed; the handle no longer owns. *)
  Definition free s h p x : state T := mkState (upd (heap s) p None) (upd (handles s) h x).
  Definition owns_nothing (x : option (option nat)) : Prop := match x with Some (Some _) => False | _ => True end.
  Lemma owned_free s h p x : owned s -> owns s h p -> owns_nothing x -> owned (free s h p x).
  Proof.
    intros (A & B & C) Hh Hx. pose proof (A h p Hh) as [v Hv]. unfold owned, owns, alive, free in *. cbn [heap handles] in *.
    assert (E : forall k q, nth_error (upd (handles s) h x) k = Some (Some (Some q)) <-> nth_error (handles s) k = Some (Some (Some q)) /\ k <> h).
    { intros k q. rewrite (nth_error_put _ _ _ _ _ Hh). destruct (Nat.eqb_spec k h) as [->|]; [|intuition].
      split; [intros H; injection H as ->; contradiction | intros [_ F]; now contradiction F]. }
    assert (D : forall q w, nth_error (upd (heap s) p None) q = Some (Some w) <-> nth_error (heap s) q = Some (Some w) /\ q <> p).
    { intros q w. rewrite (nth_error_put _ _ _ _ _ Hv). destruct (Nat.eqb_spec q p) as [->|]; [|intuition].
      split; [discriminate | intros [_ F]; now contradiction F]. }
    repeat split.
    - intros k q H. apply E in H as [H N]. destruct (A k q H) as [w Hw]. exists w. apply D. split; [exact Hw|].
      intros ->. apply N. eauto.
    - intros k k' q H H'. apply E in H as [H _]. apply E in H' as [H' _]. eauto.
    - intros q [w Hw]. apply D in Hw as [Hw N]. destruct (C q (ex_intro _ w Hw)) as [k Hk]. exists k. apply E. split; [exact Hk|].
      intros ->. congruence.
  Qed.
  Lemma contents_free s h p x : owned s -> owns s h p -> owns_nothing x -> contents (free s h p x) = upd (contents s) h (view [] x).
  Proof.
    intros O Hh Hx. unfold contents, free. cbn [heap handles]. apply ext; [now rewrite map_length, !upd_length, map_length|].
    intros k. pose proof Hh as Hh'. unfold owns in Hh'. rewrite nth_error_map, (nth_error_put _ _ _ _ _ Hh').
    assert (Hm : nth_error (map (view (heap s)) (handles s)) h = Some (view (heap s) (Some (Some p)))) by (rewrite nth_error_map, Hh'; reflexivity).
    rewrite (nth_error_put _ _ _ _ _ Hm). destruct (Nat.eqb_spec k h) as [->|N].
    - cbn [option_map]. destruct x as [[q|]|]; [contradiction|reflexivity|reflexivity].
    - rewrite nth_error_map. destruct (nth_error (handles s) k) as [[[q|]|]|] eqn:K; try reflexivity. cbn [option_map view].
      rewrite nth_error_upd. destruct (Nat.eqb_spec q p) as [->|]; [|reflexivity].
      destruct O as (_ & B & _). exfalso. apply N. now apply (B k h p).
  Qed.
  Lemma owned_null s h x : owned s -> nth_error (handles s) h = Some (Some None) -> owns_nothing x -> owned (set_handle s h x) /\ contents (set_handle s h x) = upd (contents s) h (view [] x).
  Proof.
    intros (A & B & C) Hh Hx. split.
    - unfold owned, owns, alive, set_handle in *. cbn [heap handles] in *.
      assert (E : forall k q, nth_error (upd (handles s) h x) k = Some (Some (Some q)) <-> nth_error (handles s) k = Some (Some (Some q))).
      { intros k q. rewrite (nth_error_put _ _ _ _ _ Hh). destruct (Nat.eqb_spec k h) as [->|]; [|tauto].
        rewrite Hh. split; [intros H; injection H as ->; contradiction | discriminate]. }
      repeat split.
      + intros k q H. apply E in H. eauto.
      + intros k k' q H H'. apply E in H. apply E in H'. eauto.
      + intros q H. destruct (C q H) as [k Hk]. exists k. now apply E.
    - unfold contents, set_handle. cbn [heap handles]. rewrite map_upd. destruct x as [[q|]|]; [contradiction|reflexivity|reflexivity].
  Qed.
  Lemma owned_write s p v : owned s -> alive s p -> owned (mkState (upd (heap s) p (Some v)) (handles s)).
  Proof.
    intros (A & B & C) [w Hw]. unfold owned, owns, alive in *. cbn [heap handles] in *.
    assert (D : forall q, (exists u, nth_error (upd (heap s) p (Some v)) q = Some (Some u)) <-> exists u, nth_error (heap s) q = Some (Some u)).
    { intros q. rewrite (nth_error_put _ _ _ _ _ Hw). destruct (Nat.eqb_spec q p) as [->|]; [|tauto]. split; eauto. }
    repeat split.
    - intros h q H. apply D. eauto.
    - exact B.
    - intros q H. apply D in H. eauto.
  Qed.
  Lemma contents_write s h p v : owned s -> owns s h p -> contents (mkState (upd (heap s) p (Some v)) (handles s)) = upd (contents s) h (Some (Some v)).
  Proof.
    intros O Hh. pose proof (proj1 O h p Hh) as [w Hw]. unfold contents. cbn [heap handles]. apply ext; [now rewrite upd_length, !map_length|].
    intros k. unfold owns in Hh.
    assert (Hm : nth_error (map (view (heap s)) (handles s)) h = Some (view (heap s) (Some (Some p)))) by (rewrite nth_error_map, Hh; reflexivity).
    rewrite (nth_error_put _ _ _ _ _ Hm), !nth_error_map. destruct (Nat.eqb_spec k h) as [->|N].
    - rewrite Hh. cbn [option_map view]. now rewrite (nth_error_put _ _ _ _ _ Hw), Nat.eqb_refl.
    - destruct (nth_error (handles s) k) as [[[q|]|]|] eqn:K; try reflexivity. cbn [option_map view].
      rewrite (nth_error_put _ _ _ _ _ Hw). destruct (Nat.eqb_spec q p) as [->|]; [|reflexivity].
      destruct O as (_ & B & _). exfalso. apply N. now apply (B k h p).
  Qed.
  Definition swap s h k p q : state T := set_handle (set_handle s k (Some p)) h (Some q).
  Lemma swap_handles s h k p q i : nth_error (handles s) h = Some (Some p) -> nth_error (handles s) k = Some (Some q) ->
    nth_error (handles (swap s h k p q)) i = nth_error (handles s) (if i =? h then k else if i =? k then h else i).
  Proof.
    intros Hh Hk. unfold swap, set_handle. cbn [handles].
    assert (Hh' : nth_error (upd (handles s) k (Some p)) h = Some (Some p)).
    { rewrite (nth_error_put _ _ _ _ _ Hk). destruct (Nat.eqb_spec h k); congruence. }
    rewrite (nth_error_put _ _ _ _ _ Hh'), (nth_error_put _ _ _ _ _ Hk).
    destruct (Nat.eqb_spec i h); [congruence|]. destruct (Nat.eqb_spec i k); congruence.
  Qed.
  Lemma owned_swap s h k p q : owned s -> nth_error (handles s) h = Some (Some p) -> nth_error (handles s) k = Some (Some q) -> owned (swap s h k p q).
  Proof.
    intros (A & B & C) Hh Hk. set (f := fun i => if i =? h then k else if i =? k then h else i).
    assert (E : forall i r, owns (swap s h k p q) i r <-> owns s (f i) r).
    { intros i r. unfold owns. rewrite (swap_handles s h k p q i Hh Hk). unfold f. tauto. }
    assert (I : forall i, f (f i) = i).
    { intros i. unfold f. destruct (Nat.eqb_spec i h) as [?|?]; [|destruct (Nat.eqb_spec i k) as [?|?]];
        repeat match goal with |- context [?a =? ?b] => destruct (Nat.eqb_spec a b) end; congruence. }
    repeat split.
    - intros i r H. apply E in H. exact (A _ _ H).
    - intros i i' r H H'. apply E in H. apply E in H'. rewrite <- (I i), <- (I i'). f_equal. eauto.
    - intros r H. destruct (C r H) as [i Hi]. exists (f i). apply E. now rewrite I.
  Qed.
  Lemma contents_swap s h k p q : nth_error (handles s) h = Some (Some p) -> nth_error (handles s) k = Some (Some q) ->
    contents (swap s h k p q) = upd (upd (contents s) k (view (heap s) (Some p))) h (view (heap s) (Some q)).
  Proof. intros _ _. unfold contents, swap, set_handle. cbn [heap handles]. now rewrite !map_upd. Qed.

  Lemma has_live s h : owned s -> has (contents s) h -> exists p, nth_error (handles s) h = Some (Some p) /\ live s h = Done p /\
    nth_error (contents s) h = Some (Some (value_of (contents s) h)) /\ view (heap s) (Some p) = Some (value_of (contents s) h).
  Proof.
    intros (A & _) [x Hx]. unfold value_of. rewrite Hx. unfold contents in Hx. rewrite nth_error_map in Hx.
    destruct (nth_error (handles s) h) as [[p|]|] eqn:E; try discriminate. exists p. cbn [option_map] in Hx. injection Hx as Hx. unfold live. rewrite E.
    repeat split; assumption || (unfold contents; rewrite nth_error_map, E; cbn [option_map]; now rewrite Hx).
  Qed.
  Lemma live_value s h p : owned s -> nth_error (handles s) h = Some (Some p) ->
    match p with None => value_of (contents s) h = None | Some a => exists v, nth_error (heap s) a = Some (Some v) /\ value_of (contents s) h = Some v end.
  Proof.
    intros (A & _) H. unfold value_of, contents. rewrite nth_error_map, H. destruct p as [a|]; [|reflexivity]. cbn [option_map view].
    destruct (A h a H) as [v Hv]. exists v. now rewrite Hv.
  Qed.
  Lemma full_live s h : owned s -> full (contents s) h -> exists a v, owns s h a /\ live s h = Done (Some a) /\ nth_error (heap s) a = Some (Some v) /\ value_of (contents s) h = Some v.
  Proof.
    intros O [v Hv]. destruct (has_live s h O (ex_intro _ _ Hv)) as (p & H1 & H2 & _ & _). pose proof (live_value s h p O H1) as V.
    destruct p as [a|]; [destruct V as (w & W1 & W2); exists a, w; auto|]. unfold value_of in V. rewrite Hv in V. discriminate.
  Qed.
End Steps.

(** *** C69 *)
(** One operation: it succeeds, does to the contents what it should, and ownership is preserved. *)
Theorem C69_step_partial : forall (T : Type) (assignable : bool) (broken : T -> T -> T) (o : op T) (s : state T),
  owned s -> allowed assignable o (contents s) -> ~ breaks assignable o (contents s) ->
  exists s' e, step assignable broken o s = Done (s', e) /\ owned s' /\ contents s' = vstep broken o (contents s).
Proof.
  intros T assignable broken o s O AL NB. pose proof (owned_push_null s O) as OP. pose proof (contents_push_null s) as CP.
  assert (LC : length (contents s) = length (handles s)) by apply map_length.
  assert (LAST : nth_error (handles (push s None)) (length (handles s)) = Some (Some None)) by (unfold push; cbn [handles]; rewrite nth_error_push, Nat.eqb_refl; reflexivity).
  (* a new handle on a new object *)
  assert (NEW : forall v, owned (push (fst (new s v)) (Some (snd (new s v)))) /\ contents (push (fst (new s v)) (Some (snd (new s v)))) = contents s ++ [Some (Some v)]).
  { intros v. pose proof (owned_alloc _ _ v OP LAST) as H1. pose proof (contents_alloc _ (length (handles s)) v OP) as H2.
    unfold alloc, push in H1, H2. cbn [heap handles] in H1, H2. rewrite upd_push in H1, H2. split; [exact H1|].
    unfold new, push. cbn [fst snd heap handles]. rewrite H2. change (mkState (heap s) (handles s ++ [Some None])) with (push s None). rewrite CP, <- LC. apply upd_push. }
  (* a new object in an empty handle *)
  assert (EMP : forall h v, nth_error (handles s) h = Some (Some None) -> owned (set_handle (fst (new s v)) h (Some (Some (snd (new s v))))) /\ contents (set_handle (fst (new s v)) h (Some (Some (snd (new s v))))) = upd (contents s) h (Some (Some v))).
  { intros h v H. split; [exact (owned_alloc s h v O H) | exact (contents_alloc s h v O)]. }
  (* a handle gives up its object *)
  assert (DEL : forall h p x, nth_error (handles s) h = Some (Some p) -> owns_nothing x -> exists s1, delete s p = Done s1 /\ handles s1 = handles s /\
    owned (set_handle s1 h x) /\ contents (set_handle s1 h x) = upd (contents s) h (view [] x)).
  { intros h [p|] x H X; cbn [delete deref].
    - destruct (proj1 O h p H) as [v Hv]. rewrite Hv. cbn [bind]. eexists. split; [reflexivity|]. split; [reflexivity|].
      split; [exact (owned_free s h p x O H X) | exact (contents_free s h p x O H X)].
    - exists s. split; [reflexivity|]. split; [reflexivity|]. now apply owned_null. }
  destruct o as [|v|v t|k t|k|h|h v t|h|h k t|h k]; cbn [step allowed vstep] in *.
  - exists (push s None), Normal. auto.
  - unfold NewPtr. cbn [new]. eexists _, _. split; [reflexivity|]. exact (NEW v).
  - unfold New, fill. destruct t; [exists s, Thrown; auto|]. eexists _, _. split; [reflexivity|]. exact (NEW v).
  - destruct (full_live s k O AL) as (a & v & H1 & H2 & H3 & H4). unfold Copy. rewrite H2. cbn [bind deref]. rewrite H3, H4. cbn [bind].
    unfold New, fill. destruct t; [exists s, Thrown; auto|]. eexists _, _. split; [reflexivity|]. exact (NEW v).
  - destruct (has_live s k O AL) as (p & H1 & H2 & H3 & H4). unfold Move. rewrite H2. cbn [bind ptr_move_construct]. eexists _, _. split; [reflexivity|].
    assert (K : nth_error (handles (push s None)) k = Some (Some p)).
    { unfold push. cbn [handles]. rewrite nth_error_push. destruct (Nat.eqb_spec k (length (handles s))) as [->|]; [apply nth_error_lt in H1; lia | exact H1]. }
    pose proof (owned_swap _ _ _ _ _ OP LAST K) as S1. pose proof (contents_swap _ _ _ _ _ LAST K) as S2.
    assert (E : swap (push s None) (length (handles s)) k None p = push (set_handle s k (Some None)) p).
    { unfold swap, push, set_handle. cbn [heap handles]. f_equal. rewrite upd_app, (proj2 (Nat.ltb_lt _ _) (nth_error_lt _ _ _ H1)).
      rewrite <- (upd_length (handles s) k (Some None)). apply upd_push. }
    rewrite E in S1, S2. split; [exact S1|]. rewrite S2. change (heap (push s None)) with (heap s). rewrite H4, CP, upd_app, LC, (proj2 (Nat.ltb_lt _ _) (nth_error_lt _ _ _ H1)).
    rewrite <- LC, <- (upd_length (contents s) k (Some None)). apply upd_push.
  - destruct (has_live s h O AL) as (p & H1 & H2 & H3 & H4). unfold Destroy. rewrite H2. cbn [bind].
    destruct (DEL h p None H1 I) as (s1 & D1 & _ & D2 & D3). rewrite D1. cbn [bind]. eexists _, _. split; [reflexivity|]. auto.
  - destruct (has_live s h O (ex_intro (fun x => nth_error (contents s) h = Some (Some x)) None AL)) as (p & H1 & H2 & _ & H4). unfold Emplace. rewrite H2. cbn [bind].
    pose proof (live_value s h p O H1) as V. unfold empty in AL. unfold value_of in V. rewrite AL in V.
    destruct p as [a|]; [destruct V as (w & _ & W); discriminate|]. cbn [assert bind]. unfold put.
    destruct t; [exists s, Thrown; auto|]. eexists _, _. split; [reflexivity|]. exact (EMP h v H1).
  - destruct (has_live s h O AL) as (p & H1 & H2 & H3 & H4). unfold Reset. rewrite H2. cbn [bind ptr_assign_value].
    destruct (DEL h p (Some None) H1 I) as (s1 & D1 & _ & D2 & D3). rewrite D1. cbn [bind]. eexists _, _. split; [reflexivity|]. auto.
  - destruct AL as (AH & AK & AS). destruct (has_live s h O AH) as (p & H1 & H2 & H3 & H4). destruct (full_live s k O AK) as (b & v & K1 & K2 & K3 & K4).
    unfold AssignCopy. rewrite H2, K2. cbn [bind]. rewrite K4. unfold Deref, Get. pose proof (live_value s h p O H1) as V. destruct assignable.
    + destruct p as [a|].
      * destruct V as (x & X1 & X2). rewrite X2. cbn [deref]. rewrite X1, K2. cbn [bind ptr_get deref]. rewrite K3. cbn [bind]. eexists _, _. split; [reflexivity|].
        split; [apply owned_write; [exact O | now exists x] | now apply contents_write].
      * rewrite V, K2. cbn [bind ptr_get deref]. rewrite K3. cbn [bind]. unfold put. destruct t; [exists s, Thrown; auto|]. eexists _, _. split; [reflexivity|]. exact (EMP h v H1).
    + destruct p as [a|].
      * destruct V as (x & X1 & X2). rewrite X2. destruct t.
        { exfalso. apply NB. cbn. split; [reflexivity|]. exists x. rewrite H3, X2. reflexivity. }
        cbn [delete deref]. rewrite X1. cbn [bind]. unfold live. cbn [handles]. unfold owns in K1. rewrite K1. cbn [bind ptr_get deref heap].
        assert (NE : b <> a). { intros ->. apply (AS eq_refl). destruct O as (_ & B & _). exact (B h k a H1 K1). }
        rewrite nth_error_upd. destruct (Nat.eqb_spec b a); [contradiction|]. cbn [andb]. rewrite K3. cbn [bind new ptr_assign_value]. eexists _, _. split; [reflexivity|].
        pose proof (owned_free s h a (Some None) O H1 I) as F1. pose proof (contents_free s h a (Some None) O H1 I) as F2.
        assert (N1 : nth_error (handles (free s h a (Some None))) h = Some (Some None)).
        { unfold free. cbn [handles]. now rewrite (nth_error_put _ _ _ _ _ H1), Nat.eqb_refl. }
        pose proof (owned_alloc _ h v F1 N1) as G1. pose proof (contents_alloc _ h v F1) as G2.
        assert (E : alloc (free s h a (Some None)) h v = set_handle (mkState (upd (heap s) a None ++ [Some v]) (handles s)) h (Some (Some (length (upd (heap s) a None))))).
        { unfold alloc, free, set_handle. cbn [heap handles]. f_equal. clear. revert h. induction (handles s) as [|y l IH]; intros [|h]; simpl; [reflexivity..|]. now rewrite IH. }
        rewrite E in G1, G2. split; [exact G1|]. refine (eq_trans G2 _). rewrite F2. clear. revert h. induction (contents s) as [|y l IH]; intros [|h]; simpl; [reflexivity..|]. now rewrite IH.
      * rewrite V. cbn [delete bind]. rewrite K2. cbn [bind ptr_get deref]. rewrite K3. cbn [bind]. unfold put. destruct t; [exists s, Thrown; auto|]. eexists _, _. split; [reflexivity|]. exact (EMP h v H1).
  - destruct AL as (AH & AK). destruct (has_live s h O AH) as (p & H1 & H2 & H3 & H4). destruct (has_live s k O AK) as (q & K1 & K2 & K3 & K4).
    unfold AssignMove. rewrite H2, K2. cbn [bind ptr_move_assign]. eexists _, _. split; [reflexivity|].
    split; [exact (owned_swap s h k p q O H1 K1)|]. rewrite <- H4, <- K4. exact (contents_swap s h k p q H1 K1).
Qed.
Print Assumptions C69_step_partial.

(** Histories, from a program start without handles. *)
Section Histories.
  Context {T : Type} (assignable : bool) (broken : T -> T -> T).
  Fixpoint run (os : list (op T)) (s : state T) : outcome (state T) :=
    match os with [] => Done s | o :: r => ' (s', _) <- step assignable broken o s ;; run r s' end.
  Fixpoint vrun (os : list (op T)) (a : values T) : values T := match os with [] => a | o :: r => vrun r (vstep broken o a) end.
  Fixpoint fine (os : list (op T)) (a : values T) : Prop :=
    match os with [] => True | o :: r => allowed assignable o a /\ ~ breaks assignable o a /\ fine r (vstep broken o a) end.
End Histories.
Definition start {T} : state T := mkState [] [].
Lemma owned_start {T} : owned (@start T).
Proof.
  unfold owned, owns, alive, start. cbn [heap handles]. repeat split.
  - intros [|h] p H; discriminate.
  - intros [|h] h' p H; discriminate.
  - intros [|p] [v H]; discriminate.
Qed.
(** Every object is owned by exactly one handle at any time, and no operation touches a destroyed object. *)
Theorem C69_history_partial : forall (T : Type) assignable broken (os : list (op T)), fine assignable broken os [] ->
  exists s, run assignable broken os start = Done s /\ owned s /\ contents s = vrun broken os [].
Proof.
  intros T assignable broken os F. change (@nil (option (option T))) with (contents (@start T)) in *. revert F. generalize (@owned_start T). generalize (@start T).
  induction os as [|o os IH]; intros s O F; cbn [run vrun] in *; [eauto|]. destruct F as (F1 & F2 & F3).
  destruct (C69_step_partial T assignable broken o s O F1 F2) as (s' & e & E & O' & C'). rewrite E. cbn [bind]. rewrite <- C' in *. now apply IH.
Qed.
Print Assumptions C69_history_partial.
(** Once all the handles have ended, all the objects have been destroyed (once each: [delete] faults on a destroyed object, and cells are not reused). *)
Theorem C69_no_leak_partial : forall (T : Type) assignable broken (os : list (op T)), fine assignable broken os [] ->
  Forall (fun x => x = None) (vrun broken os []) -> exists s, run assignable broken os start = Done s /\ Forall (fun c => c = None) (heap s).
Proof.
  intros T assignable broken os F E. destruct (C69_history_partial T assignable broken os F) as (s & R & (A & B & C) & V). exists s. split; [exact R|].
  apply Forall_forall. intros [v|] I; [|reflexivity]. apply In_nth_error in I as [p P]. destruct (C p (ex_intro _ v P)) as [h H].
  rewrite <- V in E. rewrite Forall_forall in E. destruct (A h p H) as [w W].
  assert (K : nth_error (contents s) h = Some (Some (Some w))) by (unfold contents; rewrite nth_error_map; unfold owns in H; rewrite H; cbn; now rewrite W).
  apply nth_error_In in K. apply E in K. discriminate.
Qed.
Print Assumptions C69_no_leak_partial.

(** The conditions of [allowed] are needed. Copying from an empty handle is undefined behaviour, *)
Theorem C69_empty_copy_refuted : forall (T : Type) assignable broken (s : state T) h k t, has (contents s) h -> owned s -> empty (contents s) k ->
  step assignable broken (OCopy k t) s = Fault FUB /\ step assignable broken (OAssignCopy h k t) s = Fault FUB.
Proof.
  intros T assignable broken s h k t AH O E. destruct (has_live s k O (ex_intro (fun x => nth_error (contents s) k = Some (Some x)) None E)) as (q & K1 & K2 & _ & _).
  pose proof (live_value s k q O K1) as V. unfold empty in E. unfold value_of in V. rewrite E in V. destruct q as [b|]; [destruct V as (? & _ & ?); discriminate|].
  destruct (has_live s h O AH) as (p & H1 & H2 & _ & _). pose proof (live_value s h p O H1) as W. cbn [step]. unfold Copy, AssignCopy, Deref, Get. rewrite H2, K2. split; [reflexivity|]. cbn [bind].
  destruct assignable, p as [a|]; cbn [delete deref bind]; try (destruct W as (w & W & _); rewrite W; cbn [bind]); rewrite ?K2; cbn [bind ptr_get deref]; try reflexivity.
  unfold live. cbn [handles]. rewrite K1. reflexivity.
Qed.
Print Assumptions C69_empty_copy_refuted.
(** so is assigning a handle to itself when T is not copy assignable (the object is deleted, then copied), *)
Theorem C69_self_assign_refuted : forall (T : Type) broken (s : state T) h t, owned s -> full (contents s) h -> step false broken (OAssignCopy h h t) s = Fault FUB.
Proof.
  intros T broken s h t O F. destruct (full_live s h O F) as (a & v & H1 & H2 & H3 & H4). cbn [step]. unfold AssignCopy, Deref, Get. rewrite H2. cbn [bind delete deref]. rewrite H3. cbn [bind].
  unfold live. cbn [handles heap]. unfold owns in H1. rewrite H1. cbn [bind ptr_get deref heap]. now rewrite (nth_error_put _ _ _ _ _ H3), Nat.eqb_refl.
Qed.
Print Assumptions C69_self_assign_refuted.
(** HasValue and the comparisons with null tell whether a handle has an object, Get and operator* give that object. *)
Theorem C69_observers : forall (T : Type) (s : state T) h, owned s -> has (contents s) h ->
  HasValue h s = Done (match value_of (contents s) h with Some _ => true | None => false end) /\
  (forall v, value_of (contents s) h = Some v -> Deref h s = Done v /\ exists p, Get h s = Done (Some p) /\ owns s h p) /\
  (value_of (contents s) h = None -> Get h s = Done None /\ Deref h s = Fault FUB).
Proof.
  intros T s h O H. destruct (has_live s h O H) as (p & H1 & H2 & _ & _). pose proof (live_value s h p O H1) as V. unfold HasValue, Deref, Get. rewrite H2. cbn [bind].
  destruct p as [p|].
  - destruct V as (v & A & B). rewrite B. split; [reflexivity|]. split; [|discriminate]. intros v' [= <-]. cbn [ptr_get deref]. rewrite A. split; [reflexivity|]. exists p. split; [reflexivity|exact H1].
  - rewrite V. split; [reflexivity|]. split; [discriminate|]. intros _. split; reflexivity.
Qed.
Print Assumptions C69_observers.
(** and Emplace on a handle that has an object is refused. *)
Theorem C69_emplace_full : forall (T : Type) assignable broken (s : state T) h v t, owned s -> full (contents s) h -> step assignable broken (OEmplace h v t) s = Fault FAssert.
Proof. intros T assignable broken s h v t O F. destruct (full_live s h O F) as (a & w & H1 & H2 & H3 & H4). cbn [step]. unfold Emplace. now rewrite H2. Qed.
Print Assumptions C69_emplace_full.
(** A copy that throws in the assignment of a T that is not copy assignable leaves a dangling pointer: the destructor deletes it again. *)
Theorem C69_throwing_assign_refuted : forall (T : Type) broken (s : state T) h k, owned s -> full (contents s) h -> full (contents s) k -> h <> k ->
  exists s', step false broken (OAssignCopy h k true) s = Done (s', Thrown) /\ step false broken (ODestroy h) s' = Fault FUB.
Proof.
  intros T broken s h k O F G N. destruct (full_live s h O F) as (a & v & H1 & H2 & H3 & H4). destruct (full_live s k O G) as (b & w & K1 & K2 & K3 & K4).
  assert (NE : b <> a). { intros ->. apply N. destruct O as (_ & B & _). exact (B h k a H1 K1). }
  cbn [step]. unfold AssignCopy, Deref, Get. rewrite H2, K2. cbn [bind delete deref]. rewrite H3. cbn [bind]. unfold live. cbn [handles heap]. unfold owns in H1, K1. rewrite K1. cbn [bind ptr_get deref heap].
  rewrite (nth_error_put _ _ _ _ _ H3). destruct (Nat.eqb_spec b a); [contradiction|]. rewrite K3. cbn [bind]. eexists. split; [reflexivity|].
  unfold Destroy, live. cbn [handles]. rewrite H1. cbn [bind delete deref heap]. now rewrite (nth_error_put _ _ _ _ _ H3), Nat.eqb_refl.
Qed.
Print Assumptions C69_throwing_assign_refuted.
(** Any use of a handle after its lifetime, or of one that was never there, is undefined. *)
Definition uses {T} (o : op T) (h : nat) : Prop :=
  match o with
  | ONewNull | ONewPtr _ | ONew _ _ => False
  | OCopy k _ | OMove k | ODestroy k | OEmplace k _ _ | OReset k => h = k
  | OAssignCopy a b _ | OAssignMove a b => h = a \/ h = b
  end.
Lemma ended_live {T} (s : state T) h : owned s -> ~ has (contents s) h -> live s h = Fault FUB.
Proof.
  intros (A & _ & _) N. unfold live. destruct (nth_error (handles s) h) as [[p|]|] eqn:E; try reflexivity. exfalso. apply N. unfold has, contents. rewrite (map_nth_error _ _ _ E).
  destruct p as [p|]; [|now exists None]. cbn [view]. destruct (A h p E) as (v & ->). now exists (Some v).
Qed.
Lemma live_or {T} (s : state T) h : (exists p, live s h = Done p) \/ live s h = Fault FUB.
Proof. unfold live. destruct (nth_error (handles s) h) as [[p|]|]; [left; now exists p|now right|now right]. Qed.
Theorem C69_ended : forall (T : Type) assignable broken (o : op T) (s : state T) h, owned s -> uses o h -> ~ has (contents s) h -> step assignable broken o s = Fault FUB.
Proof.
  intros T assignable broken o s h O U N. pose proof (ended_live s h O N) as L.
  destruct o; cbn [uses] in U; try contradiction; cbn [step]; unfold Copy, Move, Destroy, Emplace, Reset, AssignCopy, AssignMove; try (subst; now rewrite L).
  - destruct U as [->| ->]; [now rewrite L|]. destruct (live_or s h0) as [(p & ->)| ->]; [cbn [bind]; now rewrite L|reflexivity].
  - destruct U as [->| ->]; [now rewrite L|]. destruct (live_or s h0) as [(p & ->)| ->]; [cbn [bind]; now rewrite L|reflexivity].
Qed.
Print Assumptions C69_ended.
Example C69_nonvacuous :
  let os := [ONew 5 false; OCopy 0 false; OMove 0; OEmplace 0 7 false; OAssignCopy 1 0 false; OAssignMove 2 2; OAssignMove 1 2; OReset 0; OCopy 1 true; ODestroy 1; ODestroy 0; ODestroy 2] in
  fine false (fun x _ => x) os [] /\ vrun (fun x _ => x) (firstn 7 os) [] = [Some (Some 7); Some (Some 5); Some (Some 7)] /\
  (s <- run false (fun x _ => x) os start ;; Done (heap s)) = Done [None; None; None; None].
Proof.
  cbv zeta. split; [|split; reflexivity]. cbn. unfold full, has, empty. cbn.
  repeat match goal with |- _ /\ _ => split | |- exists _, _ => eexists; reflexivity | |- _ -> _ => intros ? end; try tauto; try discriminate; try reflexivity.
Qed.

(** ** The buffered version *)
Section BufferSpec.
  Context {T : Type} (moved : T -> T).
  (** The handles are values, or ended; objects are always there. *)
  Definition filled (s : bstate T) : Prop := Forall (fun c => c <> Some None) s.
  Definition ballowed (o : bop T) (s : bstate T) : Prop :=
    match o with
    | BONew _ _ => True
    | BOCopy k _ => full s k
    | BOMove k t => full s k /\ t = false
    | BODestroy h => full s h
    | BOAssignCopy h k t | BOAssignMove h k t => full s h /\ full s k /\ h <> k /\ t = false
    end.
  Definition bvstep (o : bop T) (s : bstate T) : bstate T :=
    match o with
    | BONew v t => fill s t (Some v)
    | BOCopy k t => fill s t (value_of s k)
    | BOMove k _ => upd s k (Some (option_map moved (value_of s k))) ++ [Some (value_of s k)]
    | BODestroy h => upd s h None
    | BOAssignCopy h k _ => upd s h (Some (value_of s k))
    | BOAssignMove h k _ => upd (upd s k (Some (option_map moved (value_of s k)))) h (Some (value_of s k))
    end.
End BufferSpec.
Lemma upd_twice {A} (l : list A) i x y : upd (upd l i x) i y = upd l i y.
Proof. revert i; induction l as [|z l IH]; intros [|i]; simpl; congruence. Qed.
Lemma upd_swap {A} (l : list A) i j x y : i <> j -> upd (upd l i x) j y = upd (upd l j y) i x.
Proof. revert i j; induction l as [|z l IH]; intros [|i] [|j] N; simpl; try congruence. rewrite IH by congruence. reflexivity. Qed.
Lemma full_deref {T} (s : bstate T) h : full s h -> exists v, nth_error s h = Some (Some (Some v)) /\ bderef s h = Done v /\ value_of s h = Some v.
Proof. intros [v H]. exists v. unfold bderef, blive, value_of. rewrite H. auto. Qed.
Theorem C69_buffer_step_partial : forall (T : Type) (moved : T -> T) (o : bop T) (s : bstate T), filled s -> ballowed o s ->
  exists e, bstep moved o s = Done (bvstep moved o s, e) /\ filled (bvstep moved o s).
Proof.
  intros T moved o s F A. unfold filled in *.
  assert (PUSH : forall s' v, Forall (fun c : option (option T) => c <> Some None) s' -> Forall (fun c => c <> Some None) (s' ++ [Some (Some v)])).
  { intros. apply Forall_app. split; [assumption|]. constructor; [discriminate|constructor]. }
  destruct o as [v t|k t|k t|h|h k t|h k t]; cbn [bstep bvstep ballowed] in *.
  - unfold BNew, fill. destruct t; eauto.
  - destruct (full_deref s k A) as (v & H1 & H2 & H3). unfold BCopy. rewrite H2, H3. cbn [bind]. unfold BNew, fill. destruct t; eauto.
  - destruct A as [A ->]. destruct (full_deref s k A) as (v & H1 & H2 & H3). unfold BMove. rewrite H2, H3. cbn [bind option_map]. eexists. split; [reflexivity|].
    apply PUSH, Forall_upd; [exact F | discriminate].
  - destruct (full_deref s h A) as (v & H1 & H2 & H3). unfold BDestroy, bdestroy_object. rewrite H2. cbn [bind]. rewrite upd_twice. eexists. split; [reflexivity|]. apply Forall_upd; [exact F | discriminate].
  - destruct A as (A & B & N & ->). destruct (full_deref s h A) as (v & H1 & H2 & H3). destruct (full_deref s k B) as (w & K1 & K2 & K3).
    unfold BAssignCopy, bdestroy_object. rewrite H2, K3. cbn [bind]. unfold bderef at 1, blive. rewrite (nth_error_put _ _ _ _ _ H1). destruct (Nat.eqb_spec k h); [congruence|]. rewrite K1. cbn [bind].
    rewrite upd_twice. eexists. split; [reflexivity|]. apply Forall_upd; [exact F | discriminate].
  - destruct A as (A & B & N & ->). destruct (full_deref s h A) as (v & H1 & H2 & H3). destruct (full_deref s k B) as (w & K1 & K2 & K3).
    unfold BAssignMove, bdestroy_object. rewrite H2, K3. cbn [bind option_map]. unfold bderef at 1, blive. rewrite (nth_error_put _ _ _ _ _ H1). destruct (Nat.eqb_spec k h); [congruence|]. rewrite K1. cbn [bind].
    rewrite (upd_swap s h k) by congruence. rewrite upd_twice. eexists. split; [reflexivity|]. apply Forall_upd; [apply Forall_upd; [exact F | discriminate] | discriminate].
Qed.
Print Assumptions C69_buffer_step_partial.
(** Assigning a handle to itself reads the object just destroyed; a throwing copy leaves a destroyed object that the destructor destroys again. *)
Theorem C69_buffer_self_assign_refuted : forall (T : Type) (moved : T -> T) (s : bstate T) h t, full s h ->
  bstep moved (BOAssignCopy h h t) s = Fault FUB /\ bstep moved (BOAssignMove h h t) s = Fault FUB.
Proof.
  intros T moved s h t A. destruct (full_deref s h A) as (v & H1 & H2 & H3). cbn [bstep]. unfold BAssignCopy, BAssignMove, bdestroy_object. rewrite H2. cbn [bind].
  unfold bderef, blive. rewrite (nth_error_put _ _ _ _ _ H1), Nat.eqb_refl. split; reflexivity.
Qed.
Print Assumptions C69_buffer_self_assign_refuted.
Theorem C69_buffer_throwing_assign_refuted : forall (T : Type) (moved : T -> T) (s : bstate T) h k, full s h -> full s k -> h <> k ->
  exists s', bstep moved (BOAssignCopy h k true) s = Done (s', Thrown) /\ bstep moved (BODestroy h) s' = Fault FUB.
Proof.
  intros T moved s h k A B N. destruct (full_deref s h A) as (v & H1 & H2 & H3). destruct (full_deref s k B) as (w & K1 & K2 & K3).
  cbn [bstep]. unfold BAssignCopy, bdestroy_object. rewrite H2. cbn [bind]. unfold bderef at 1, blive. rewrite (nth_error_put _ _ _ _ _ H1). destruct (Nat.eqb_spec k h); [congruence|]. rewrite K1. cbn [bind].
  eexists. split; [reflexivity|]. unfold BDestroy, bdestroy_object, bderef, blive. rewrite (nth_error_put _ _ _ _ _ H1), Nat.eqb_refl. reflexivity.
Qed.
Print Assumptions C69_buffer_throwing_assign_refuted.
Definition buses {T} (o : bop T) (h : nat) : Prop :=
  match o with BONew _ _ => False | BOCopy k _ | BOMove k _ | BODestroy k => h = k | BOAssignCopy a b _ | BOAssignMove a b _ => h = a \/ h = b end.
Lemma bended {T} (s : bstate T) h : ~ full s h -> bderef s h = Fault FUB.
Proof. intros N. unfold bderef, blive. destruct (nth_error s h) as [[[v|]|]|] eqn:E; try reflexivity. destruct N. now exists v. Qed.
Theorem C69_buffer_ended : forall (T : Type) (moved : T -> T) (o : bop T) (s : bstate T) h, buses o h -> ~ full s h -> bstep moved o s = Fault FUB.
Proof.
  intros T moved o s h U N. pose proof (bended s h N) as L.
  assert (K : forall h0, exists s1, bdestroy_object s h0 = Fault FUB \/ (bdestroy_object s h0 = Done s1 /\ bderef s1 h = Fault FUB)).
  { intros h0. unfold bdestroy_object. destruct (bderef s h0) as [v|f] eqn:E.
    - exists (upd s h0 (Some None)). right. split; [reflexivity|]. apply bended. intros (w & W). rewrite nth_error_upd in W. destruct (_ && _); [discriminate|]. apply N. now exists w.
    - exists s. left. cbn [bind]. unfold bderef, blive in E. destruct (nth_error s h0) as [[[v|]|]|]; cbn [bind] in E; try discriminate; injection E as <-; reflexivity. }
  destruct o; cbn [buses] in U; try contradiction; cbn [bstep]; unfold BCopy, BMove, BDestroy, BAssignCopy, BAssignMove.
  - subst. now rewrite L.
  - subst. now rewrite L.
  - subst. unfold bdestroy_object. now rewrite L.
  - destruct U as [->| ->]; [unfold bdestroy_object; now rewrite L|]. destruct (K h0) as (s1 & [-> |(-> & E)]); [reflexivity|]. cbn [bind]. now rewrite E.
  - destruct U as [->| ->]; [unfold bdestroy_object; now rewrite L|]. destruct (K h0) as (s1 & [-> |(-> & E)]); [reflexivity|]. cbn [bind]. now rewrite E.
Qed.
Print Assumptions C69_buffer_ended.
Example C69_buffer_nonvacuous : let s := [Some (Some 1); None; Some (Some 2)] in
  filled s /\ bstep (fun _ => 0) (BOAssignMove 0 2 false) s = Done ([Some (Some 2); None; Some (Some 0)], Normal).
Proof. split; [|reflexivity]. repeat constructor; discriminate. Qed.
