(** Properties C65 and C66: MovableLiteral, MovablePtr, MovableValue. *)
From Verif Require Import Base MovableModel.

(** *** C65 *)
Section Histories.
  Context {T : Type} (D : T) (eq_dec : forall x y : T, {x = y} + {x <> y}).
  (** Histories over any number of MovableLiteral objects. *)
  Inductive lop := LNew (v : T) | LNewDefault | LMove (i : nat) | LMoveAssign (i j : nat) | LSet (i : nat) (v : T).
  Definition lstep (l : list T) (o : lop) : outcome (list T) :=
    match o with
    | LNew v => Done (l ++ [lit_of_value v])
    | LNewDefault => Done (l ++ [lit_default D])
    | LMove i => x <- vget l i ;; let '(n, x') := lit_move_construct D x in l' <- vset l i x' ;; Done (l' ++ [n])
    | LMoveAssign i j => a <- vget l i ;; b <- vget l j ;; let '(a', b') := lit_move_assign a b in l' <- vset l j b' ;; vset l' i a'
    | LSet i v => x <- vget l i ;; vset l i (fst (lit_assign_value x v))
    end.
  Fixpoint lrun (l : list T) (h : list lop) : outcome (list T) := match h with [] => Done l | o :: r => l' <- lstep l o ;; lrun l' r end.
  Definition is_set (o : lop) : bool := match o with LSet _ _ => true | _ => false end.
  (** How often [v] was put into a new object. *)
  Definition introduced (v : T) (h : list lop) : nat := length (filter (fun o => match o with LNew x => if eq_dec x v then true else false | _ => false end) h).

  Lemma count_app l x v : count_occ eq_dec (l ++ [x]) v = count_occ eq_dec l v + (if eq_dec x v then 1 else 0).
  Proof. rewrite count_occ_app. cbn. destruct (eq_dec x v); reflexivity. Qed.
  Lemma count_upd l i x y v : nth_error l i = Some x ->
    count_occ eq_dec (upd l i y) v + (if eq_dec x v then 1 else 0) = count_occ eq_dec l v + (if eq_dec y v then 1 else 0).
  Proof.
    revert i. induction l as [|z l IH]; intros [|i] H; cbn [nth_error] in H; try discriminate.
    - injection H as ->. cbn [upd count_occ]. destruct (eq_dec x v), (eq_dec y v); lia.
    - specialize (IH i H). cbn [upd count_occ]. destruct (eq_dec z v); lia.
  Qed.
  Lemma vget_nth (l : list T) i x : vget l i = Done x -> nth_error l i = Some x.
  Proof. unfold vget. destruct (nth_error l i); [|discriminate]. intros H. now injection H as ->. Qed.
  Lemma vset_upd (l l' : list T) i x : vset l i x = Done l' -> l' = upd l i x.
  Proof. unfold vset. destruct (i <? length l); [|discriminate]. intros H. now injection H as <-. Qed.
  Lemma lstep_count l o l' v : v <> D -> is_set o = false -> lstep l o = Done l' -> count_occ eq_dec l' v = count_occ eq_dec l v + introduced v [o].
  Proof.
    intros ND NS H. destruct o as [x| |i|i j|i x]; cbn [lstep] in H; unfold introduced; cbn [filter length].
    - injection H as <-. rewrite count_app. unfold lit_of_value. destruct (eq_dec x v); reflexivity.
    - injection H as <-. rewrite count_app. unfold lit_default. destruct (eq_dec D v); [now elim ND | reflexivity].
    - apply bind_done in H as (x & G & H). cbn [lit_move_construct] in H. apply bind_done in H as (l1 & G1 & H). injection H as <-.
      apply vset_upd in G1 as ->. apply vget_nth in G. pose proof (count_upd l i x D v G) as C. rewrite count_app. destruct (eq_dec D v); [now elim ND|]. cbn. lia.
    - apply bind_done in H as (a & Ga & H). apply bind_done in H as (b & Gb & H). cbn [lit_move_assign] in H. apply bind_done in H as (l1 & G1 & H).
      apply vset_upd in G1 as ->. apply vset_upd in H as ->. apply vget_nth in Ga, Gb. pose proof (count_upd l j b a v Gb) as C1.
      assert (NA : nth_error (upd l j a) i = Some a).
      { rewrite nth_error_upd. destruct ((i =? j) && (j <? length l)); [reflexivity | exact Ga]. }
      pose proof (count_upd (upd l j a) i a b v NA) as C2. cbn. lia.
    - discriminate.
  Qed.
  Lemma lrun_count h v : v <> D -> forallb (fun o => negb (is_set o)) h = true -> forall l l', lrun l h = Done l' -> count_occ eq_dec l' v = count_occ eq_dec l v + introduced v h.
  Proof.
    intros ND. induction h as [|o h IH]; cbn [lrun forallb]; intros NS l l' H.
    - injection H as <-. unfold introduced. cbn. lia.
    - apply andb_true_iff in NS as (N1 & N2). apply negb_true_iff in N1. apply bind_done in H as (l1 & S & H). rewrite (IH N2 l1 l' H), (lstep_count l o l1 v ND N1 S).
      unfold introduced. cbn [filter]. destruct o as [x| | | |]; cbn [length]; try lia. destruct (eq_dec x v); cbn [length]; lia.
  Qed.
End Histories.

(** A value other than the default is held by as many objects as it was created in: moves neither duplicate nor lose it. *)
Theorem C65_literal : forall (T : Type) (D : T) eq_dec h l v, v <> D -> forallb (fun o => negb (is_set o)) h = true -> lrun D [] h = Done l ->
  count_occ eq_dec l v = introduced eq_dec v h.
Proof. intros T D eq_dec h l v ND NS H. now rewrite (lrun_count D eq_dec h v ND NS [] l H). Qed.
Print Assumptions C65_literal.
Theorem C65_literal_move : forall (T : Type) (D a b : T),
  lit_move_construct D b = (b, D) /\ lit_move_assign a b = (b, a) /\ lit_copy_construct b = (b, b) /\ lit_copy_assign a b = (b, b) /\ lit_assign_value a b = (b, b) /\ lit_get b = b.
Proof. intros. repeat split. Qed.
Print Assumptions C65_literal_move.
(** MovablePtr is the same class with nullptr for default. *)
Theorem C65_pointer : forall (A : Type) (a b : option A),
  ptr_move_construct b = lit_move_construct None b /\ ptr_move_assign a b = lit_move_assign a b /\ ptr_of_value b = lit_of_value b /\ ptr_assign_value a b = fst (lit_assign_value a b).
Proof. intros. repeat split. Qed.
Print Assumptions C65_pointer.
Theorem C65_pointer_history : forall (A : Type) (eq_dec : forall x y : option A, {x = y} + {x <> y}) h l p,
  forallb (fun o => negb (is_set o)) h = true -> lrun None [] h = Done l -> count_occ eq_dec l (Some p) = introduced eq_dec (Some p) h.
Proof. intros A eq_dec h l p NS H. apply (C65_literal _ None eq_dec h l (Some p)); trivial. discriminate. Qed.
Print Assumptions C65_pointer_history.
(** After a move assignment the source is not reset: it holds what the target held. *)
Theorem C65_move_assign_source : forall (T : Type) (D a b : T), a <> D -> snd (lit_move_assign a b) = a /\ snd (lit_move_assign a b) <> D.
Proof. intros T D a b H. split; [reflexivity | exact H]. Qed.
Print Assumptions C65_move_assign_source.
Example C65_nonvacuous : lrun 0 [] [LNew 7; LMove 0; LNewDefault; LMoveAssign 2 1; LMove 2; LNew 9; LMoveAssign 3 4] = Done [0; 0; 0; 9; 7].
Proof. reflexivity. Qed.

(** *** C66 *)
Theorem C66_const_lvalue_partial : forall (T : Type) (moved : T -> T) this x,
  val_assign_value moved ConstLvalue this x = (x, x) /\ val_assign moved ConstLvalue this x = (x, x).
Proof. intros. split; reflexivity. Qed.
Print Assumptions C66_const_lvalue_partial.
(** A non-const variable is moved from, be it a T or a MovableValue<T>. *)
Theorem C66_lvalue_refuted : forall (T : Type) (moved : T -> T) this x,
  val_assign_value moved Lvalue this x = (x, moved x) /\ val_assign moved Lvalue this x = (x, moved x).
Proof. intros. split; reflexivity. Qed.
Print Assumptions C66_lvalue_refuted.
(** Construction from a variable copies; moves transfer the value. *)
Theorem C66_construct : forall (T : Type) (moved : T -> T) this x,
  val_of moved ConstLvalue x = (x, x) /\ val_of moved Lvalue x = (x, x) /\ val_of moved Rvalue x = (x, moved x) /\
  val_move_construct moved x = (x, moved x) /\ val_assign moved Rvalue this x = (x, moved x).
Proof. intros. repeat split. Qed.
Print Assumptions C66_construct.
Example C66_nonvacuous : val_assign (fun _ => @nil nat) Lvalue [1] [2; 3] = ([2; 3], []) /\ val_of (fun _ => @nil nat) Lvalue [2; 3] = ([2; 3], [2; 3]).
Proof. split; reflexivity. Qed.
