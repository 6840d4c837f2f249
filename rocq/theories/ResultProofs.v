(** Histories of Result objects and proofs about ResultModel.v. *)
From Verif Require Import Base ResultModel.

(** ** Histories over any number of Result<V, E> objects. The booleans tell whether the payload operation throws. *)
Section History.
  Context {V E : Type} (movedV : V -> V) (movedE : E -> E) (TV TE : payload_type).
  Inductive hop :=
  | HOk (c : cat) (v : V) | HErr (c : cat) (e : E)            (* a new object from Ok(...) / Err(...) *)
  | HCopy (i : nat) | HMove (i : nat)                          (* a new object copied / moved from object i *)
  | HAssignCopy (i j : nat) (throws : bool) | HAssignMove (i j : nat) (throws : bool)
  | HWriteValue (i : nat) (v : V) | HWriteError (i : nat) (e : E)
  | HTakeValue (i : nat) | HTakeError (i : nat).               (* x = std::move(r).GetValue() / GetError() *)
  Definition hstep (l : list (result V E)) (o : hop) : outcome (list (result V E)) :=
    match o with
    | HOk c v => Done (l ++ [fst (from_ok movedV c v)])
    | HErr c e => Done (l ++ [fst (from_err movedE c e)])
    | HCopy i => r <- vget l i ;; Done (l ++ [copy_construct r])
    | HMove i => r <- vget l i ;; let '(n, r') := move_construct movedV movedE r in l' <- vset l i r' ;; Done (l' ++ [n])
    | HAssignCopy i j t => a <- vget l i ;; b <- vget l j ;; vset l i (fst (assign_copy TV TE a b t))
    | HAssignMove i j t => a <- vget l i ;; b <- vget l j ;;
        let '((a', _), b') := assign_move movedV movedE a b t in l' <- vset l j b' ;; vset l' i a'
    | HWriteValue i v => r <- vget l i ;; r' <- write_value r v ;; vset l i r'
    | HWriteError i e => r <- vget l i ;; r' <- write_error r e ;; vset l i r'
    | HTakeValue i => r <- vget l i ;; GetValue r ;;; vset l i (moved_value movedV r)
    | HTakeError i => r <- vget l i ;; GetError r ;;; vset l i (moved_error movedE r)
    end.
  Fixpoint hrun (l : list (result V E)) (h : list hop) : outcome (list (result V E)) :=
    match h with [] => Done l | o :: r => l' <- hstep l o ;; hrun l' r end.
  (** Types that are declared nothrow do not throw: a throwing copy (move) needs a payload type whose copy (move) may throw. *)
  Definition may_throw (l : list (result V E)) (o : hop) : Prop :=
    match o with
    | HAssignCopy i j true => (exists v, nth_error l j = Some (RVal v) /\ nothrow_copy TV = false) \/ (exists e, nth_error l j = Some (RErr e) /\ nothrow_copy TE = false)
    | HAssignMove i j true => (exists v, nth_error l j = Some (RVal v) /\ nothrow_move TV = false) \/ (exists e, nth_error l j = Some (RErr e) /\ nothrow_move TE = false)
    | _ => True
    end.
  Fixpoint hallowed (l : list (result V E)) (h : list hop) : Prop :=
    match h with [] => True | o :: r => may_throw l o /\ forall l', hstep l o = Done l' -> hallowed l' r end.

  Definition sided (r : result V E) : Prop := r <> RValueless.
  Lemma sided_vget l i r : Forall sided l -> vget l i = Done r -> sided r.
  Proof. unfold vget. intros F H. destruct (nth_error l i) eqn:X; [|discriminate]. injection H as <-. eapply Forall_forall; [exact F|]. now apply nth_error_In in X. Qed.
  Lemma sided_vset l i r l' : Forall sided l -> sided r -> vset l i r = Done l' -> Forall sided l'.
  Proof. unfold vset. intros F S H. destruct (i <? length l); [|discriminate]. injection H as <-. now apply Forall_upd. Qed.
  Lemma hstep_sided l o l' : nothrow_move TV = true -> nothrow_move TE = true -> Forall sided l -> may_throw l o -> hstep l o = Done l' -> Forall sided l'.
  Proof.
    intros MV ME F MT H.
    assert (APP : forall x, sided x -> Forall sided (l ++ [x])) by (intros x Hx; apply Forall_app; auto).
    assert (VG : forall i r, vget l i = Done r -> nth_error l i = Some r).
    { intros i r. unfold vget. destruct (nth_error l i); [|discriminate]. intros X. now injection X as <-. }
    destruct o as [c v|c e|i|i|i j t|i j t|i v|i e|i|i]; cbn [hstep] in H.
    - injection H as <-. apply APP. discriminate.
    - injection H as <-. apply APP. discriminate.
    - apply bind_done in H as (r & G & H). injection H as <-. apply APP. exact (sided_vget l i r F G).
    - apply bind_done in H as (r & G & H). pose proof (sided_vget l i r F G) as SR. unfold move_construct in H. apply bind_done in H as (l1 & G1 & H). injection H as <-.
      apply Forall_app. split; [|auto]. eapply sided_vset; [exact F| |exact G1]. destruct r; [discriminate|discriminate|exact SR].
    - apply bind_done in H as (a & Ga & H). apply bind_done in H as (b & Gb & H). pose proof (sided_vget l i a F Ga) as Sa. pose proof (sided_vget l j b F Gb) as Sb.
      eapply sided_vset; [exact F| |exact H]. pose proof (VG j b Gb) as Nb.
      assert (TC : t = true -> match b with RVal _ => nothrow_copy TV = false | RErr _ => nothrow_copy TE = false | RValueless => True end).
      { intros ->. cbn [may_throw] in MT. rewrite Nb in MT. destruct MT as [(v & X & C)|(e & X & C)]; injection X as ->; exact C. }
      destruct b as [v|e|]; [| |now elim Sb].
      + destruct a as [v0|e0|]; [| |now elim Sa]; cbn [assign_copy]; unfold emplace.
        * destruct t; cbn; discriminate.
        * rewrite MV. destruct t; [rewrite (TC eq_refl); cbn; discriminate|]. destruct (nothrow_copy TV || negb true); cbn; discriminate.
      + destruct a as [v0|e0|]; [| |now elim Sa]; cbn [assign_copy]; unfold emplace.
        * rewrite ME. destruct t; [rewrite (TC eq_refl); cbn; discriminate|]. destruct (nothrow_copy TE || negb true); cbn; discriminate.
        * destruct t; cbn; discriminate.
    - apply bind_done in H as (a & Ga & H). apply bind_done in H as (b & Gb & H). pose proof (sided_vget l i a F Ga) as Sa. pose proof (sided_vget l j b F Gb) as Sb.
      pose proof (VG j b Gb) as Nb. assert (t = false) as ->.
      { destruct t; [|reflexivity]. cbn [may_throw] in MT. destruct MT as [(v & X & C)|(e & X & C)]; congruence. }
      destruct b as [v|e|]; [| |now elim Sb]; (destruct a as [v0|e0|]; [| |now elim Sa]); cbn [assign_move] in H;
        apply bind_done in H as (l1 & G1 & H); refine (sided_vset _ _ _ _ (sided_vset _ _ _ _ F _ G1) _ H); discriminate.
    - apply bind_done in H as (r & G & H). apply bind_done in H as (r' & W & H). eapply sided_vset; [exact F| |exact H].
      unfold write_value in W. apply bind_done in W as (x & _ & W). injection W as <-. discriminate.
    - apply bind_done in H as (r & G & H). apply bind_done in H as (r' & W & H). eapply sided_vset; [exact F| |exact H].
      unfold write_error in W. apply bind_done in W as (x & _ & W). injection W as <-. discriminate.
    - apply bind_done in H as (r & G & H). apply bind_done in H as (x & _ & H). eapply sided_vset; [exact F| |exact H].
      pose proof (sided_vget l i r F G) as SR. destruct r; [discriminate|discriminate|exact SR].
    - apply bind_done in H as (r & G & H). apply bind_done in H as (x & _ & H). eapply sided_vset; [exact F| |exact H].
      pose proof (sided_vget l i r F G) as SR. destruct r; [discriminate|discriminate|exact SR].
  Qed.
  Lemma hrun_sided h : nothrow_move TV = true -> nothrow_move TE = true -> forall l l', Forall sided l -> hallowed l h -> hrun l h = Done l' -> Forall sided l'.
  Proof.
    intros MV ME. induction h as [|o h IH]; cbn [hrun hallowed]; intros l l' F A H.
    - now injection H as <-.
    - apply bind_done in H as (l1 & S & H). destruct A as (A1 & A2). eapply IH; [|apply A2; exact S|exact H]. exact (hstep_sided l o l1 MV ME F A1 S).
  Qed.
End History.
