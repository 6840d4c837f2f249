(** Properties C61-C64: Result. *)
From Verif Require Import Base ResultModel ResultProofs.

(** *** C61 *)
(** In any history of construction, copy, move, assignment and writing, with payload types whose moves do not throw (copies may throw),
    every object has exactly one side. *)
Theorem C61_one_side_partial : forall (V E : Type) (movedV : V -> V) (movedE : E -> E) TV TE h l, nothrow_move TV = true -> nothrow_move TE = true ->
  hallowed movedV movedE TV TE [] h -> hrun movedV movedE TV TE [] h = Done l -> Forall (fun r => IsOk r = negb (IsErr r)) l.
Proof.
  intros V E movedV movedE TV TE h l MV ME A H. eapply Forall_impl; [|exact (hrun_sided movedV movedE TV TE h MV ME [] l (Forall_nil _) A H)].
  intros [v|e|] S; [reflexivity|reflexivity|now elim S].
Qed.
Print Assumptions C61_one_side_partial.
(** When a payload's move can throw, an assignment that changes the side and throws leaves an object that is neither a value nor an error:
    no accessor works, Expect does not report it, GetValueOr hides it, and Map with a noexcept functor terminates the program. *)
Theorem C61_throwing_move_refuted : forall (V E : Type) (movedV : V -> V) (movedE : E -> E) TV TE (l r : result V E),
  (exists v e, (l = RVal v /\ r = RErr e) \/ (l = RErr e /\ r = RVal v)) ->
  let x := fst (fst (assign_move movedV movedE l r true)) in
  IsOk x = false /\ IsErr x = false /\ GetValue x = Fault FThrow /\ GetError x = Fault FThrow /\ Expect x = Done tt /\
  (forall c cd d, exists x' d', GetValueOr movedV c x cd d = Done (d, x', d')) /\
  (forall (W S : Type) n t (f : V -> S -> outcome (W * S)) s, Map_const n t x f s = Fault (if n then FTerminate else FThrow)) /\
  (nothrow_copy TV = nothrow_move TV -> nothrow_copy TE = nothrow_move TE -> nothrow_copy TV = false -> nothrow_copy TE = false -> fst (assign_copy TV TE l r true) = x).
Proof.
  intros V E movedV movedE TV TE l r H x.
  assert (X : x = RValueless) by (destruct H as (v & e & [(-> & ->)|(-> & ->)]); reflexivity).
  rewrite X. clearbody x. subst x. do 5 (split; [reflexivity|]). split; [intros c cd d; destruct cd; do 2 eexists; reflexivity|].
  split; [intros W S n t f s; destruct n; reflexivity|]. intros A B C D.
  destruct H as (v & e & [(-> & ->)|(-> & ->)]); cbn [assign_copy]; rewrite <- ?A, <- ?B, ?C, ?D; reflexivity.
Qed.
Print Assumptions C61_throwing_move_refuted.
(** The accessors return the stored payload of the right side and throw otherwise. *)
Theorem C61_accessors : forall (V E : Type) (r : result V E),
  (forall v, GetValue r = Done v <-> r = RVal v) /\ (forall e, GetError r = Done e <-> r = RErr e) /\
  (IsOk r = false -> GetValue r = Fault FThrow) /\ (IsErr r = false -> GetError r = Fault FThrow) /\
  op_bool r = IsOk r /\ op_star r = GetValue r /\ op_arrow r = GetValue r /\
  (Expect r = Done tt <-> IsErr r = false) /\ (Expect r = Fault FThrow <-> IsErr r = true).
Proof. intros V E [v|e|]; cbn; repeat split; intros; try congruence; try discriminate. Qed.
Print Assumptions C61_accessors.
Theorem C61_ok_err : forall (V E : Type) (movedV : V -> V) (movedE : E -> E) c v e,
  fst (from_ok (E := E) movedV c v) = RVal v /\ fst (from_err (V := V) movedE c e) = RErr e.
Proof. intros. split; reflexivity. Qed.
Print Assumptions C61_ok_err.
(** GetValueOr: the value, or the default; an lvalue result or default is left alone. *)
Theorem C61_value_or : forall (V E : Type) (movedV : V -> V) c (r : result V E) cd d,
  exists x r' d', GetValueOr movedV c r cd d = Done (x, r', d') /\ (forall v, r = RVal v -> x = v /\ d' = d) /\ (IsOk r = false -> x = d /\ r' = r) /\ (c = LV -> r' = r) /\ (cd = LV -> d' = d).
Proof.
  intros V E movedV c [v|e|] cd d; unfold GetValueOr, take; cbn; do 3 eexists; (split; [reflexivity|]); repeat split; intros; try congruence; try discriminate;
    match goal with H : _ = LV |- _ => now rewrite H | _ => idtac end.
Qed.
Print Assumptions C61_value_or.
(** Conversion between Result types keeps the side and converts the payload; an lvalue source is unchanged. *)
Theorem C61_convert : forall (V E V2 E2 : Type) mV mE (fV : V2 -> V) (fE : E2 -> E) c (r : result V2 E2),
  (forall v, r = RVal v -> exists r', convert mV mE fV fE c r = Done (RVal (fV v), r') /\ (c = LV -> r' = r)) /\
  (forall e, r = RErr e -> exists r', convert mV mE fV fE c r = Done (RErr (fE e), r') /\ (c = LV -> r' = r)).
Proof. intros V E V2 E2 mV mE fV fE c [v|e|]; split; intros x H; try discriminate; injection H as <-; eexists; (split; [reflexivity|]); now intros ->. Qed.
Print Assumptions C61_convert.
(** Assignment. Without an exception the left object becomes the right one, and a moved-from object keeps its side; an exception always leaves the
    right object alone. On one side it leaves the left object's side and payload; across sides the left object survives exactly when a copy was made first. *)
Theorem C61_assignment : forall (V E : Type) (movedV : V -> V) (movedE : E -> E) TV TE (l r : result V E),
  assign_copy TV TE l r false = (r, false) /\
  (exists r', assign_move movedV movedE l r false = ((r, false), r') /\ (forall v, r = RVal v -> r' = RVal (movedV v)) /\ (forall e, r = RErr e -> r' = RErr (movedE e)) /\ (r = RValueless -> r' = RValueless)) /\
  (r <> RValueless -> snd (assign_copy TV TE l r true) = true /\ snd (fst (assign_move movedV movedE l r true)) = true /\ snd (assign_move movedV movedE l r true) = r) /\
  (forall a b, l = RVal a -> r = RVal b -> fst (assign_copy TV TE l r true) = l /\ fst (fst (assign_move movedV movedE l r true)) = l) /\
  (forall a b, l = RErr a -> r = RErr b -> fst (assign_copy TV TE l r true) = l /\ fst (fst (assign_move movedV movedE l r true)) = l) /\
  (forall a b, l = RErr a -> r = RVal b -> fst (assign_copy TV TE l r true) = if negb (nothrow_copy TV) && nothrow_move TV then l else RValueless) /\
  (forall a b, l = RVal a -> r = RErr b -> fst (assign_copy TV TE l r true) = if negb (nothrow_copy TE) && nothrow_move TE then l else RValueless).
Proof.
  intros V E mV mE TV TE l r. unfold assign_copy, assign_move, emplace. destruct (nothrow_copy TV), (nothrow_move TV), (nothrow_copy TE), (nothrow_move TE);
    destruct l as [v|e|], r as [v'|e'|]; cbn; (split; [reflexivity|]); (split; [eexists; split; [reflexivity|]; repeat split; intros; congruence|]);
    (split; [intros H; first [now elim H|repeat split; reflexivity]|]); (split; [|split; [|split]]); intros; try discriminate; try split; try congruence; reflexivity.
Qed.
Print Assumptions C61_assignment.
(** Result<void, E>. *)
Theorem C61_void : forall (E : Type) (r : option E),
  void_IsOk r = negb (void_IsErr r) /\ (forall e, void_GetError r = Done e <-> r = Some e) /\ (void_IsErr r = false -> void_GetError r = Fault FThrow) /\
  (void_Expect r = Done tt <-> void_IsErr r = false) /\ (void_Expect r = Fault FThrow <-> void_IsErr r = true) /\ void_op_bool r = void_IsOk r /\
  void_IsOk (E := E) void_ok = true /\ (forall m c e, fst (void_from_err (E := E) m c e) = Some e) /\
  (forall (E2 : Type) m (f : E -> E2) c, exists r', void_convert m f c r = Done (option_map f r, r') /\ (c = LV -> r' = r)).
Proof.
  intros E [e|]; cbn; repeat split; intros; try congruence; try discriminate; eexists; (split; [reflexivity|]); now intros ->.
Qed.
Print Assumptions C61_void.
Example C61_nonvacuous :
  let T := {| nothrow_copy := false; nothrow_move := true |} in
  (* a throwing copy assignment across sides keeps the old value; two objects exchange through moves *)
  hallowed (fun _ => 0) (fun _ => true) T T [] [HOk LV 5; HErr LV false; HAssignCopy 0 1 true; HMove 0; HAssignCopy 0 1 false] /\
  hrun (fun _ => 0) (fun _ => true) T T [] [HOk LV 5; HErr LV false; HAssignCopy 0 1 true; HMove 0; HAssignCopy 0 1 false] = Done [RErr false; RErr false; RVal 5].
Proof.
  cbn. split; [|reflexivity]. repeat split; intros; repeat match goal with H : Done _ = Done _ |- _ => injection H as <-; cbn | _ => split; intros end; trivial.
  right. eexists. split; reflexivity.
Qed.

(** *** C62 *)
(** The functor runs once on a value, never on an error; the error is passed on. *)
Theorem C62_map : forall (V W E S : Type) n t (r : result V E) (f : V -> S -> outcome (W * S)) s,
  (forall v, r = RVal v -> Map_const n t r f s = noexcept_if n (' (w, s') <- f v s ;; Done (RVal w, s'))) /\
  (forall e, r = RErr e -> t e = false -> Map_const n t r f s = Done (RErr e, s)).
Proof. intros V W E S n t r f s. split; [intros v ->; reflexivity|]. intros e -> T. unfold Map_const. cbn. now rewrite T. Qed.
Print Assumptions C62_map.
Theorem C62_map_move : forall (V W E S : Type) mE n t (r : result V E) (f : V -> S -> outcome (W * V * S)) s,
  (forall v, r = RVal v -> Map_move mE n t r f s = noexcept_if n (' (w, v', s') <- f v s ;; Done (RVal w, RVal v', s'))) /\
  (forall e, r = RErr e -> t e = false -> Map_move mE n t r f s = Done (RErr e, RErr (mE e), s)).
Proof. intros V W E S mE n t r f s. split; [intros v ->; reflexivity|]. intros e -> T. unfold Map_move. cbn. now rewrite T. Qed.
Print Assumptions C62_map_move.
Theorem C62_map_void : forall (V W E S : Type) mE n t s,
  (forall (f : S -> outcome (W * S)),
    void_Map_const (E := E) n t None f s = noexcept_if n (' (w, s') <- f s ;; Done (RVal w, s')) /\
    void_Map_move (E := E) mE n t None f s = noexcept_if n (' (w, s') <- f s ;; Done (RVal w, None, s')) /\
    forall e, t e = false -> void_Map_const n t (Some e) f s = Done (RErr e, s) /\ void_Map_move mE n t (Some e) f s = Done (RErr e, Some (mE e), s)) /\
  (forall (f : S -> outcome S),
    void_Map_const_void (E := E) n t None f s = noexcept_if n (s' <- f s ;; Done (None, s')) /\ forall e, t e = false -> void_Map_const_void n t (Some e) f s = Done (Some e, s)) /\
  (forall (f : V -> S -> outcome S),
    (forall v, Map_const_void (E := E) n t (RVal v) f s = noexcept_if n (s' <- f v s ;; Done (None, s'))) /\ forall e, t e = false -> Map_const_void n t (RErr e) f s = Done (Some e, s)).
Proof.
  intros V W E S mE n t s. split; [|split]; intros f.
  - split; [reflexivity|]. split; [reflexivity|]. intros e T. unfold void_Map_const, void_Map_move. cbn. rewrite T. split; reflexivity.
  - split; [reflexivity|]. intros e T. unfold void_Map_const_void. cbn. now rewrite T.
  - split; [reflexivity|]. intros e T. unfold Map_const_void. cbn. now rewrite T.
Qed.
Print Assumptions C62_map_void.
(** Functor laws, effects included. *)
Theorem C62_identity : forall (V E S : Type) n t (r : result V E) (s : S), r <> RValueless -> (forall e, r = RErr e -> t e = false) ->
  Map_const n t r (fun v s => Done (v, s)) s = Done (r, s).
Proof. intros V E S n t [v|e|] s H T; [reflexivity| |now elim H]. unfold Map_const. cbn. now rewrite (T e eq_refl). Qed.
Print Assumptions C62_identity.
Theorem C62_composition : forall (V W X E S : Type) t (r : result V E) (f : V -> S -> outcome (W * S)) (g : W -> S -> outcome (X * S)) s,
  (' (r', s') <- Map_const false t r f s ;; Map_const false t r' g s') = Map_const false t r (fun v s => ' (w, s') <- f v s ;; g w s') s.
Proof.
  intros V W X E S t [v|e|] f g s; unfold Map_const; cbn.
  - destruct (f v s) as [(w & s')|[]]; cbn; try reflexivity.
  - destruct (t e) eqn:T; cbn; [reflexivity|]. now rewrite T.
  - reflexivity.
Qed.
Print Assumptions C62_composition.
(** Map is declared noexcept after the functor only: copying the error can terminate the program. *)
Theorem C62_noexcept_refuted : forall (V W E S : Type) (t : E -> bool) (e : E) (f : V -> S -> outcome (W * S)) s, t e = true ->
  Map_const true t (RErr e) f s = Fault FTerminate /\ Map_const false t (RErr e) f s = Fault FThrow.
Proof. intros V W E S t e f s T. unfold Map_const. cbn. rewrite T. split; reflexivity. Qed.
Print Assumptions C62_noexcept_refuted.
(** Every overload: an error whose copy or move throws throws it out, or terminates when the functor is noexcept; the functor does not run. *)
Theorem C62_throwing_error : forall (V W E S : Type) mE (n : bool) (t : E -> bool) (e : E) (s : S), t e = true ->
  let f0 := if n then FTerminate else FThrow in
  (forall f : V -> S -> outcome (W * S), Map_const n t (RErr e) f s = Fault f0) /\ (forall f : V -> S -> outcome (W * V * S), Map_move mE n t (RErr e) f s = Fault f0) /\
  (forall f : V -> S -> outcome S, Map_const_void n t (RErr e) f s = Fault f0) /\ (forall f : S -> outcome (W * S), void_Map_const n t (Some e) f s = Fault f0) /\
  (forall f : S -> outcome (W * S), void_Map_move mE n t (Some e) f s = Fault f0) /\ (forall f : S -> outcome S, void_Map_const_void n t (Some e) f s = Fault f0).
Proof.
  intros V W E S mE n t e s T. unfold Map_const, Map_move, Map_const_void, void_Map_const, void_Map_move, void_Map_const_void. cbn. rewrite T.
  destruct n; repeat split.
Qed.
Print Assumptions C62_throwing_error.
Example C62_nonvacuous :
  let f := fun v log => Done (v + 1, v :: log) in
  Map_const false (fun _ => false) (RVal (E := bool) 5) f [] = Done (RVal 6, [5]) /\ Map_const false (fun _ => false) (RErr true) f [] = Done (RErr true, []).
Proof. split; reflexivity. Qed.

(** *** C63 *)
(** What a body should do: [steps p s] lists the results and states of the steps that run, and says how the body ends. *)
Inductive body_runs {V E S} : prog V E S -> S -> result V E -> S -> list (result V E) -> Prop :=
| b_return f s r s' : f s = Done (r, s') -> body_runs (Return f) s r s' []
| b_try_ok st rest s v s1 r s' ran : st s = Done (RVal v, s1) -> body_runs rest s1 r s' ran -> body_runs (Try st rest) s r s' (RVal v :: ran)
| b_try_err st rest s e s1 : st s = Done (RErr e, s1) -> body_runs (Try st rest) s (RErr e) s1 [RErr e]
| b_value_ok st rest s v s1 r s' ran : st s = Done (RVal v, s1) -> body_runs (rest v) s1 r s' ran -> body_runs (TryValue st rest) s r s' (RVal v :: ran)
| b_value_err st rest s e s1 : st s = Done (RErr e, s1) -> body_runs (TryValue st rest) s (RErr e) s1 [RErr e].
Theorem C63_try : forall (V E S : Type) mE (p : prog V E S) s r s', run mE p s = Done (r, s') <-> exists ran, body_runs p s r s' ran.
Proof.
  intros V E S mE p. induction p as [f|st rest IH|st rest IH]; intros s r s'; cbn [run].
  - split; [intros H; eexists; constructor; exact H|]. intros (ran & H). now inversion H.
  - split.
    + intros H. apply bind_done in H as ((x & s1) & G & H). destruct x as [v|e|]; cbn in H; [| |discriminate].
      * apply IH in H as (ran & B). eexists. eapply b_try_ok; eassumption.
      * injection H as <- <-. eexists. eapply b_try_err. exact G.
    + intros (ran & B). inversion B as [|st0 rest0 s0 v s1 r0 s0' ran0 G B'|st0 rest0 s0 e s1 G| |]; subst; rewrite G; cbn; [|reflexivity]. apply IH. eauto.
  - split.
    + intros H0. apply bind_done in H0 as ((x & s1) & G & H0). destruct x as [v|e|]; cbn in H0; [| |discriminate].
      * apply IH in H0 as (ran & B). eexists. eapply b_value_ok; eassumption.
      * injection H0 as <- <-. eexists. eapply b_value_err. exact G.
    + intros (ran & B). inversion B as [| | |st0 rest0 s0 v s1 r0 s0' ran0 G B'|st0 rest0 s0 e s1 G]; subst; rewrite G; cbn; [|reflexivity]. apply IH. eauto.
Qed.
Print Assumptions C63_try.
(** Every step that ran before the last one succeeded; the body ends with the first error, in the state that step left. *)
Theorem C63_first_error : forall (V E S : Type) (p : prog V E S) s r s' ran, body_runs p s r s' ran ->
  (Forall (fun x => IsOk x = true) ran) \/ (exists pre e, ran = pre ++ [RErr e] /\ Forall (fun x => IsOk x = true) pre /\ r = RErr e).
Proof.
  intros V E S p s r s' ran H. induction H as [f s r s' H|st rest s v s1 r s' ran G B IH|st rest s e s1 G|st rest s v s1 r s' ran G B IH|st rest s e s1 G].
  - left. constructor.
  - destruct IH as [A|(pre & e & -> & A & ->)]; [left; now constructor|]. right. exists (RVal v :: pre), e. repeat split; now constructor.
  - right. exists [], e. repeat split. constructor.
  - destruct IH as [A|(pre & e & -> & A & ->)]; [left; now constructor|]. right. exists (RVal v :: pre), e. repeat split; now constructor.
  - right. exists [], e. repeat split. constructor.
Qed.
Print Assumptions C63_first_error.
(** A straight-line body of steps that log themselves: exactly the steps up to the first failing one run, in order. *)
Theorem C63_sequence : forall (V E : Type) mE (steps : list (result V E)) (last : result V E) log,
  let body := fold_right (fun x p => Try (fun s => Done (x, s ++ [x])) p) (Return (fun s => Done (last, s))) steps in
  Forall (fun x => x <> RValueless) steps ->
  (Forall (fun x => IsOk x = true) steps -> run mE body log = Done (last, log ++ steps)) /\
  (forall pre e post, steps = pre ++ RErr e :: post -> Forall (fun x => IsOk x = true) pre -> run mE body log = Done (RErr e, log ++ pre ++ [RErr e])).
Proof.
  intros V E mE steps last. induction steps as [|x steps IH]; intros log body HS; subst body; cbn [fold_right run].
  - split; [intros _; now rewrite app_nil_r|]. intros [|? ?] e post X; discriminate.
  - inversion HS as [|y ys H1 H2]; subst. cbn [bind]. destruct (IH (log ++ [x]) H2) as (A & B). split.
    + intros F. inversion F as [|y ys F1 F2]; subst. rewrite F1. cbn [negb]. rewrite A by exact F2. now rewrite <- app_assoc.
    + intros pre e post X F. destruct pre as [|y pre]; cbn [app] in X; injection X as -> X.
      * cbn. reflexivity.
      * inversion F as [|z zs F1 F2]; subst z zs. rewrite F1. cbn [negb]. rewrite (B pre e post X F2), <- app_assoc. reflexivity.
Qed.
Print Assumptions C63_sequence.
(** Functions returning Result<void, E>. *)
Theorem C63_void_sequence : forall (V E : Type) mE (steps : list (option E)) (last : option E) log,
  let body := fold_right (fun x p => VTry (V := V) (fun s => Done (x, s ++ [x])) p) (VReturn (fun s => Done (last, s))) steps in
  (Forall (fun x => x = None) steps -> vrun mE body log = Done (last, log ++ steps)) /\
  (forall pre e post, steps = pre ++ Some e :: post -> Forall (fun x => x = None) pre -> vrun mE body log = Done (Some e, log ++ pre ++ [Some e])).
Proof.
  intros V E mE steps last. induction steps as [|x steps IH]; intros log body; subst body; cbn [fold_right vrun].
  - split; [intros _; now rewrite app_nil_r|]. intros [|? ?] e post X; discriminate.
  - cbn [bind]. destruct (IH (log ++ [x])) as (A & B). split.
    + intros F. inversion F as [|y ys F1 F2]; subst. cbn. rewrite A by exact F2. now rewrite <- app_assoc.
    + intros pre e post X F. destruct pre as [|y pre]; cbn [app] in X; injection X as -> X.
      * reflexivity.
      * inversion F as [|z zs F1 F2]; subst. cbn. rewrite (B pre e post eq_refl F2), <- app_assoc. reflexivity.
Qed.
Print Assumptions C63_void_sequence.
(** Their bodies, mixing both macros. *)
Inductive vbody_runs {V E S} : vprog V E S -> S -> option E -> S -> Prop :=
| v_return f s r s' : f s = Done (r, s') -> vbody_runs (VReturn f) s r s'
| v_try_ok st rest s s1 r s' : st s = Done (None, s1) -> vbody_runs rest s1 r s' -> vbody_runs (VTry st rest) s r s'
| v_try_err st rest s e s1 : st s = Done (Some e, s1) -> vbody_runs (VTry st rest) s (Some e) s1
| v_value_ok st rest s v s1 r s' : st s = Done (RVal v, s1) -> vbody_runs (rest v) s1 r s' -> vbody_runs (VTryValue st rest) s r s'
| v_value_err st rest s e s1 : st s = Done (RErr e, s1) -> vbody_runs (VTryValue st rest) s (Some e) s1.
Theorem C63_void_try : forall (V E S : Type) mE (p : vprog V E S) s r s', vrun mE p s = Done (r, s') <-> vbody_runs p s r s'.
Proof.
  intros V E S mE p. induction p as [f|st rest IH|st rest IH]; intros s r s'; cbn [vrun].
  - split; [intros H; constructor; exact H|]. intros H. now inversion H.
  - split.
    + intros H. apply bind_done in H as ((x & s1) & G & H). destruct x as [e|]; cbn in H.
      * injection H as <- <-. eapply v_try_err. exact G.
      * apply IH in H. eapply v_try_ok; eassumption.
    + intros B. inversion B as [|st0 rest0 s0 s1 r0 s0' G B'|st0 rest0 s0 e s1 G| |]; subst; rewrite G; cbn; [|reflexivity]. now apply IH.
  - split.
    + intros H0. apply bind_done in H0 as ((x & s1) & G & H0). destruct x as [v|e|]; cbn in H0; [| |discriminate].
      * apply IH in H0. eapply v_value_ok; eassumption.
      * injection H0 as <- <-. eapply v_value_err. exact G.
    + intros B. inversion B as [| | |st0 rest0 s0 v s1 r0 s0' G B'|st0 rest0 s0 e s1 G]; subst; rewrite G; cbn; [|reflexivity]. now apply IH.
Qed.
Print Assumptions C63_void_try.
Example C63_nonvacuous :
  let step x := fun log => Done (x, log ++ [x]) in
  let body := TryValue (step (RVal 3)) (fun a => Try (step (RVal 0)) (TryValue (step (RErr true)) (fun b => Return (fun log => Done (RVal (a + b), log))))) in
  run (fun _ => false) body [] = Done (RErr true, [RVal 3; RVal 0; RErr true]) /\
  run (E := bool) (fun _ => false) (TryValue (step (RVal 3)) (fun a => TryValue (step (RVal 4)) (fun b => Return (fun log => Done (RVal (a + b), log))))) [] = Done (RVal 7, [RVal 3; RVal 4]).
Proof. split; reflexivity. Qed.

(** *** C64 *)
Theorem C64_lvalue_partial : forall (V E : Type) (movedV : V -> V) (movedE : E -> E) v e,
  from_err (V := V) movedE LV e = (RErr e, e) /\ from_ok (E := E) movedV LV v = (RVal v, v).
Proof. split; reflexivity. Qed.
Print Assumptions C64_lvalue_partial.
(** Result<void, E> moves out of the caller's variable. *)
Theorem C64_void_refuted : forall (E : Type) (movedE : E -> E) e, void_from_err movedE LV e = (Some e, movedE e).
Proof. reflexivity. Qed.
Print Assumptions C64_void_refuted.
(** It leaves the variable unchanged only for types whose move is a copy. *)
Theorem C64_void_trivial_partial : forall (E : Type) (movedE : E -> E) e, movedE e = e -> void_from_err movedE LV e = (Some e, e).
Proof. intros E m e H. unfold void_from_err, take. now rewrite H. Qed.
Print Assumptions C64_void_trivial_partial.
Example C64_nonvacuous : (* a string error, moved-from strings being empty *)
  from_err (V := nat) (fun _ => @nil nat) LV [1; 2] = (RErr [1; 2], [1; 2]) /\ void_from_err (fun _ => @nil nat) LV [1; 2] = (Some [1; 2], []).
Proof. split; reflexivity. Qed.
