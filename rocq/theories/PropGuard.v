(** Properties C116 (guards own their slots, copies of signals) , C117 (arguments of an emission) and C118 (captures of running callbacks). *)
From Coq Require Import Permutation.
From Verif Require Import SignalSpec SignalModel SignalProofs SignalEmit SignalHistory GuardModel PropSignal GuardProofs.
Open Scope nat_scope.

(** *** C116 *)
Lemma history_inv k ops : forall w gs n ss, inv k w gs n ss -> (N.of_nat n + N.of_nat (length ops) + 5 < two64)%N ->
  match hsteps k (n, ss) ops with
  | Some (n', ss') => exists w' gs', ghistory (w, gs) ops = Done (w', gs') /\ inv k w' gs' n' ss'
  | None => ghistory (w, gs) ops = Fault FUB
  end.
Proof.
  induction ops as [|o ops IH]; intros w gs n ss I HN; cbn [hsteps ghistory]; [eauto|]. cbn [length] in HN. pose proof (step_inv k w gs n ss o I ltac:(lia)) as K. destruct (hstep k (n, ss) o) as [(n1 & ss1)|] eqn:E; [|now rewrite K].
  destruct K as (w1 & gs1 & -> & I1). cbn [bind]. apply IH; [exact I1|]. assert (n1 <= S n) by (unfold hstep in E; repeat match type of E with context [match ?x with _ => _ end] => destruct x; try discriminate end; injection E as <- <-; lia). lia.
Qed.
(** After any history of guards, on [k] signals: the slots connected to a signal are those that guards hold, each held by one guard, and a guard is connected iff it
    holds a slot. The history is undefined exactly when it uses a destroyed guard or a signal that does not exist. *)
Theorem C116_guards k ops : (N.of_nat (length ops) + 5 < two64)%N ->
  match hsteps k (0, []) ops with
  | Some (_, ss) => exists w gs, ghistory (start k, []) ops = Done (w, gs) /\
      (forall s id, In id (connected (trace w) s) <-> exists g, nth_error ss g = Some (Some (Some (id, s)))) /\
      (forall g h id s t, nth_error ss g = Some (Some (Some (id, s))) -> nth_error ss h = Some (Some (Some (id, t))) -> g = h) /\
      (forall g, match nth_error ss g with
                 | Some (Some held) => exists c, nth_error gs g = Some (Some c) /\ IsConnected w c = match held with Some _ => true | None => false end
                 | _ => nth_error gs g = match nth_error ss g with Some _ => Some None | None => None end
                 end)
  | None => ghistory (start k, []) ops = Fault FUB
  end.
Proof.
  intros HN. pose proof (history_inv k ops _ _ _ _ (start_inv k) HN) as H. unfold holders, guards in *. destruct (hsteps k (0, []) ops) as [(n & ss)|]; [|exact H]. destruct H as (w & gs & E & I). exists w, gs. split; [exact E|]. split; [|split].
  - intros s id. exact (i_conn _ _ _ _ _ I id s).
  - exact (i_one _ _ _ _ _ I).
  - intros g. pose proof (i_agree _ _ _ _ _ I g) as A. destruct (nth_error ss g) as [[held|]|] eqn:EG, (nth_error gs g) as [[c|]|]; cbn [agree] in A; try contradiction; try reflexivity.
    exists c. split; [reflexivity|]. destruct A as (_ & A). destruct held as [(id & s)|]; [|exact A]. subst c. apply (C50_is_connected w id (i_reached _ _ _ _ _ I)). exists s. apply (i_conn _ _ _ _ _ I). now exists g.
Qed.
(** When all guards are gone nothing is connected. *)
Theorem C116_no_guard_no_slot k ops n ss : (N.of_nat (length ops) + 5 < two64)%N -> hsteps k (0, []) ops = Some (n, ss) -> (forall g, g < length ss -> nth_error ss g = Some None) ->
  exists w gs, ghistory (start k, []) ops = Done (w, gs) /\ forall s, connected (trace w) s = [].
Proof.
  intros HN E A. pose proof (C116_guards k ops HN) as H. rewrite E in H. destruct H as (w & gs & EH & C & _). exists w, gs. split; [exact EH|]. intros s. destruct (connected (trace w) s) as [|id l] eqn:EC; [reflexivity|]. exfalso.
  destruct (proj1 (C s id) ltac:(rewrite EC; now left)) as (g & K). assert (g < length ss) by (apply nth_error_Some; congruence). rewrite A in K by assumption. discriminate.
Qed.
(** A copy of a signal has no slots, and neither making nor assigning one changes any other. *)
Theorem C116_copy beh fuel w s : reached w -> let w' := sig_copy w s in
  reached w' /\ lives w' (length (sigs w)) /\ connected (trace w') (length (sigs w)) = [] /\ (forall t, connected (trace w') t = connected (trace w) t) /\ (forall c, IsConnected w' c = IsConnected w c) /\
  (exists w2, emit beh (S fuel) w' (length (sigs w)) = Done w2 /\ trace w2 = trace w) /\ (forall d, sig_copy_assign w d s = w).
Proof.
  intros H w'. pose proof (r_new w H) as R'. destruct (reached_keeps w H) as ((G & V) & BD). assert (C0 : connected (trace w) (length (sigs w)) = []) by (apply V; intros (x & K); assert (length (sigs w) < length (sigs w)) by (apply nth_error_Some; congruence); lia).
  assert (LV : lives w' (length (sigs w))) by (exists new_signal; unfold w', sig_copy, sig_new; cbn [sigs]; rewrite nth_error_app2, Nat.sub_diag by lia; reflexivity).
  split; [exact R'|]. split; [exact LV|]. split; [exact C0|]. split; [reflexivity|]. split; [|split; [|reflexivity]].
  - intros [c|]; [|reflexivity]. apply eq_true_iff_eq. rewrite (C50_is_connected w' c R'), (C50_is_connected w c H). reflexivity.
  - unfold emit, set_iterator, sig_at, vget. unfold w', sig_copy, sig_new. cbn [sigs]. rewrite nth_error_app2, Nat.sub_diag by lia. cbn [nth_error bind]. unfold sig_put. rewrite vset_done by (cbn [sigs]; rewrite app_length; cbn [length]; lia). cbn [bind sigs heap leaked trace emit_loop]. unfold sig_at, vget. cbn [sigs]. rewrite nth_error_upd, Nat.eqb_refl, app_length. cbn [length]. replace (length (sigs w) <? length (sigs w) + 1) with true by lia. cbn. eauto.
Qed.
(** Connection::Connect connects a new slot; whatever the connection held stays connected (a guard would end it, C50). *)
Theorem C116_reconnect w c s : reached w -> lives w s -> (N.of_nat (length (heap w)) + 5 < two64)%N ->
  exists w' id, conn_connect w c s = Done (w', Some id) /\ reached w' /\ IsConnected w' (Some id) = true /\ (forall k, k <> id -> IsConnected w' (Some k) = IsConnected w (Some k)) /\ (IsConnected w c = true -> c <> Some id).
Proof.
  intros H LV HN. destruct (C50_connect w s H LV HN) as (w' & id & E & R' & FR & C & IC). exists w', id. unfold conn_connect. rewrite E. split; [reflexivity|]. split; [exact R'|]. split; [exact IC|]. split.
  - intros k D. apply eq_true_iff_eq. rewrite (C50_is_connected w' k R'), (C50_is_connected w k H). split; intros (t & X); exists t.
    + rewrite C in X. destruct (Nat.eq_dec t s) as [->|D']; [rewrite Nat.eqb_refl in X; apply in_app_or in X; destruct X as [X|[X|[]]]; [exact X | congruence]|]. now rewrite (proj2 (Nat.eqb_neq t s) D') in X.
    + rewrite C. destruct (Nat.eqb_spec t s) as [->|]; [apply in_or_app; now left | exact X].
  - intros IC0 ->. apply (C50_is_connected w id H) in IC0. destruct IC0 as (t & K). exact (FR t K).
Qed.
Print Assumptions C116_guards.
Print Assumptions C116_no_guard_no_slot.
Print Assumptions C116_copy.
Print Assumptions C116_reconnect.
(** Two guards, one connected; moved to a third, assigned over the second; the first is destroyed, and the slot stays; then the signal is cleared. *)
Example C116_example : exists w gs, ghistory (start 1, []) [GNew; GNew; GConnect 0 0; GConnect 1 0; GMoveNew 0; GMoveAssign 1 2; GDestroy 0] = Done (w, gs) /\
  map (fun c => IsConnected w (Some c)) [0; 1] = [true; false] /\ gs = [None; Some (Some 0); Some None] /\ hsteps 1 (0, []) [GNew; GNew; GConnect 0 0; GConnect 1 0; GMoveNew 0; GMoveAssign 1 2; GDestroy 0] = Some (2, [None; Some (Some (0, 0)); Some None]) /\
  gstep (w, gs) (GDisconnect 0) = Fault FUB.
Proof. eexists _, _. split; [vm_compute; reflexivity|]. repeat split; vm_compute; reflexivity. Qed.

(** *** C117 *)
Section Delivery.
  Context {V : Type} (moved : V -> V).
  Definition passed (m : mode) : bool := match m with PValue | PConstRef => true | _ => false end.
  (** Values and const references: every callback receives what was emitted, whatever the callbacks do with their parameters, and the emitter's variables stay. *)
  Theorem C117_values ms f ids (args : list V) : forallb passed ms = true -> length ms = length args -> (forall id l, length l = length args -> length (f id l) = length args) ->
    deliver moved ms f ids args = (map (fun id => (id, args)) ids, args).
  Proof.
    intros HM HL HF. assert (R : map (fun '(m, a) => fst (receive moved m a)) (combine ms args) = args).
    { clear HF. revert args HL. induction ms as [|m ms IH]; intros [|a args] HL; try discriminate; [reflexivity|]. cbn [combine map]. cbn [forallb] in HM. apply andb_prop in HM. f_equal; [now destruct m | apply IH; [tauto | now injection HL]]. }
    assert (B : forall l, length l = length args -> map (fun '(m, (a, b)) => left_by m a b) (combine ms (combine args l)) = args).
    { clear HF R. revert args HL. induction ms as [|m ms IH]; intros [|a args] HL [|b l] EL; try discriminate; [reflexivity|]. cbn [combine map]. cbn [forallb] in HM. apply andb_prop in HM. f_equal; [now destruct m | apply IH; [tauto | now injection HL | now injection EL]]. }
    induction ids as [|id ids IH]; [reflexivity|]. cbn [deliver]. rewrite R, B by (now apply HF). now rewrite IH.
  Qed.
  (** References: a callback receives what the one before left. *)
  Fixpoint chain (f : nat -> list V -> list V) (ids : list nat) (args : list V) : list (nat * list V) * list V :=
    match ids with [] => ([], args) | id :: ids => let '(r, e) := chain f ids (f id args) in ((id, args) :: r, e) end.
  Theorem C117_references n f ids : forall args : list V, n = length args -> (forall id l, length l = n -> length (f id l) = n) -> deliver moved (repeat PLRef n) f ids args = chain f ids args.
  Proof.
    induction ids as [|id ids IH]; intros args HL HF; [reflexivity|]. cbn [deliver chain].
    assert (R : forall l : list V, n = length l -> map (fun '(m, a) => fst (receive moved m a)) (combine (repeat PLRef n) l) = l) by (clear; intros l ->; induction l as [|a l IH]; [reflexivity|]; cbn [length repeat combine map]; f_equal; exact IH).
    assert (B : forall l l' : list V, n = length l -> length l' = n -> map (fun '(m, (a, b)) => left_by m a b) (combine (repeat PLRef n) (combine l l')) = l').
    { clear. intros l l' ->. revert l'. induction l as [|a l IH]; intros [|b l'] E; try discriminate; [reflexivity|]. cbn [length repeat combine map]. f_equal. apply IH. now injection E. }
    rewrite R by assumption. rewrite B by auto. rewrite IH; [reflexivity | symmetry; apply HF; auto | exact HF].
  Qed.
  (** In general each parameter goes its own way: what a callback receives in parameter [i] depends on its mode only. *)
  Theorem C117_each_parameter ms f id (args : list V) i m a : nth_error ms i = Some m -> nth_error args i = Some a -> length ms = length args -> (forall id l, length (f id l) = length l) ->
    exists received args', deliver moved ms f [id] args = ([(id, received)], args') /\ nth_error received i = Some a /\
      nth_error args' i = match m with PLRef | PRRef => nth_error (f id received) i | _ => Some a end.
  Proof.
    intros EM EA HL HF. cbn [deliver]. eexists _, _. split; [reflexivity|].
    assert (NC : forall A B (l : list A) (l' : list B) j, nth_error (combine l l') j = match nth_error l j, nth_error l' j with Some x, Some y => Some (x, y) | _, _ => None end).
    { intros A B. induction l as [|x l IH]; intros [|y l'] [|j]; cbn; try reflexivity; [now destruct (nth_error l j) | apply IH]. }
    split; [rewrite nth_error_map, NC, EM, EA; now destruct m|]. rewrite nth_error_map, !NC, EM, EA. remember (f id _) as g eqn:EG.
    destruct (nth_error g i) as [b|] eqn:EB; [now destruct m|]. exfalso. apply nth_error_None in EB. assert (length g = length ms) by (rewrite EG, HF, map_length, combine_length; lia). assert (i < length ms) by (apply nth_error_Some; congruence). lia.
  Qed.
End Delivery.
(** With the emission: every slot connected is called once and receives the values emitted. *)
Theorem C117_emission {V} (moved : V -> V) beh fuel w s ms f (args : list V) : reached w -> lives w s -> silent beh -> length (connected (trace w) s) < fuel ->
  forallb passed ms = true -> length ms = length args -> (forall id l, length l = length args -> length (f id l) = length args) ->
  exists w' t, emit beh fuel w s = Done w' /\ trace w' = trace w ++ map ECall t /\ Permutation t (connected (trace w) s) /\ deliver moved ms f t args = (map (fun id => (id, args)) t, args).
Proof.
  intros H LV HB HF HM HL HG. destruct (C47_emission_calls_each_slot_once beh fuel w s H LV HB HF) as (w' & t & E & T & P & _). exists w', t. repeat split; auto. now apply C117_values.
Qed.
(** Signals whose parameters can only be moved, or are rvalue references, cannot be emitted. *)
Theorem C117_moves_refuted ms : emission_compiles ms = false <-> In PMoveOnly ms \/ In PRRef ms.
Proof.
  unfold emission_compiles. induction ms as [|m ms IH]; [cbn; intuition discriminate|]. cbn [forallb]. rewrite andb_false_iff, IH. destruct m; cbn; intuition (try discriminate).
Qed.
Print Assumptions C117_values.
Print Assumptions C117_references.
Print Assumptions C117_each_parameter.
Print Assumptions C117_emission.
Print Assumptions C117_moves_refuted.
Example C117_example : deliver (fun _ => 0) [PValue; PLRef] (fun id l => map (fun x => x + 10 + id) l) [1; 2] [5; 7] = ([(1, [5; 7]); (2, [5; 18])], [5; 30]) /\ emission_compiles [PValue; PLRef; PConstRef] = true /\ emission_compiles [PValue; PRRef] = false.
Proof. repeat split. Qed.

(** *** C118 *)
(** What ends slot [id] of signal [s]. *)
Definition ends (s id : nat) (a : action) : bool := match a with ADisconnect c => c =? id | AClear t => t =? s | _ => false end.
Lemma act_connected w s id a w' : reached w -> In id (connected (trace w) s) -> noemit a -> simple_action w a = Done w' -> bounded w' -> reached w' /\ (In id (connected (trace w') s) <-> ends s id a = false).
Proof.
  intros H HI NA E HB. assert (R' : reached w') by (apply (r_act quiet 0 a w w' H); [destruct a; exact E || destruct NA | exact HB]). split; [exact R'|]. destruct a as [c|t|t|t]; cbn [ends] in *; [| | |destruct NA].
  - destruct (C50_disconnect w c H) as (w1 & E1 & _ & C & _). cbn [simple_action] in E. rewrite E in E1. injection E1 as <-. rewrite C, without_in. destruct (Nat.eqb_spec c id) as [->|D]; intuition congruence.
  - cbn [simple_action] in E. apply bind_inv in E. destruct E as ((w1 & k) & E & E'). injection E' as <-. destruct (connect_lives _ _ _ _ E) as (_ & _ & T). rewrite T, connected_app. cbn [fold_left step_connected]. split; [reflexivity|]. intros _. destruct (t =? s); [apply in_or_app; now left | exact HI].
  - cbn [simple_action] in E. assert (LV : lives w t) by (unfold sig_clear in E; apply bind_inv in E; destruct E as (x & E & _); exact (lives_at _ _ _ E)). destruct (C50_clear w t H LV) as (w1 & E1 & _ & C). rewrite E in E1. injection E1 as <-. rewrite C, (Nat.eqb_sym s t). destruct (t =? s); [split; [intros [] | discriminate] | tauto].
Qed.
Lemma connected_owned w s id : reached w -> In id (connected (trace w) s) -> owned w id = true.
Proof. intros H HI. assert (K : IsConnected w (Some id) = true) by (apply (C50_is_connected w id H); eauto). unfold IsConnected, lock in K. now destruct (owned w id). Qed.
Lemma captured_app id a b w : run_captured id (a ++ b) w = (w' <- run_captured id a w ;; run_captured id b w').
Proof. revert w. induction a as [|x a IH]; intros w; [reflexivity|]. cbn [app run_captured]. destruct (owned w id); [|reflexivity]. cbn [require bind]. destruct (simple_action w x); [apply IH | reflexivity]. Qed.
Lemma perform_simple emit a acts w : noemit a -> perform emit (a :: acts) w = (w <- simple_action w a ;; perform emit acts w).
Proof. destruct a; intros []; reflexivity. Qed.
(** A callback finds its captures alive until it ends its own slot: if that is the last thing it does, if it does it at all, using them changes nothing. *)
Theorem C118_captures_partial emit s id : (forall w t w', emit w t = Done w' -> length (heap w) <= length (heap w')) -> forall acts w w', reached w -> In id (connected (trace w) s) -> Forall noemit acts -> perform emit acts w = Done w' -> bounded w' ->
  (forall a, In a (removelast acts) -> ends s id a = false) -> run_captured id acts w = Done w'.
Proof.
  intros HM. induction acts as [|a acts IH]; intros w w' H HI NA E HB HE; [exact E|]. inversion NA as [|? ? N1 N2]; subst. rewrite perform_simple in E by assumption. apply bind_inv in E. destruct E as (w1 & E1 & E). cbn [run_captured]. rewrite (connected_owned w s id H HI). cbn [require bind]. rewrite E1. cbn [bind].
  assert (B1 : bounded w1) by (apply (bounded_le w1 w' HB); exact (perform_heap emit acts HM _ _ E)).
  destruct acts as [|b acts]; [exact E|]. destruct (act_connected w s id a w1 H HI N1 E1 B1) as (R1 & C1). apply IH; auto.
  - apply C1, HE. now left.
  - intros x K. apply HE. right. exact K.
Qed.
(** What comes after that uses captures that are destroyed. *)
Theorem C118_captures_refuted s id w pre a b post w1 : reached w -> In id (connected (trace w) s) -> Forall noemit (pre ++ [a]) -> history quiet 0 w (pre ++ [a]) = Done w1 -> bounded w1 ->
  (forall x, In x pre -> ends s id x = false) -> ends s id a = true -> run_captured id (pre ++ a :: b :: post) w = Fault FUB.
Proof.
  intros H HI NA E HB HP HA. unfold history in E. assert (HM : forall v t v', emit quiet 0 v t = Done v' -> length (heap v) <= length (heap v')) by (intros v t v' K; exact (emit_heap _ _ _ _ _ K)).
  assert (K : run_captured id (pre ++ [a]) w = Done w1) by (apply (C118_captures_partial (emit quiet 0) s id HM (pre ++ [a]) w w1); auto; intros x X; rewrite removelast_last in X; auto).
  replace (pre ++ a :: b :: post) with ((pre ++ [a]) ++ b :: post) by (now rewrite <- app_assoc). rewrite captured_app, K. cbn [bind run_captured]. replace (owned w1 id) with false; [reflexivity|]. symmetry.
  assert (R : forall l v v', reached v -> In id (connected (trace v) s) -> Forall noemit l -> perform (emit quiet 0) l v = Done v' -> bounded v' -> (forall x, In x l -> ends s id x = false) -> reached v' /\ In id (connected (trace v') s)).
  { clear - HM. induction l as [|x l IH]; intros v v' H HI NA E HB HE; [injection E as <-; auto|]. inversion NA as [|? ? N1 N2]; subst. rewrite perform_simple in E by assumption. apply bind_inv in E. destruct E as (v1 & E1 & E). assert (B1 : bounded v1) by (apply (bounded_le v1 v' HB); exact (perform_heap (emit quiet 0) l HM _ _ E)).
    destruct (act_connected v s id x v1 H HI N1 E1 B1) as (R1 & C1). apply (IH v1 v'); auto; [apply C1, HE; now left | intros y Y; apply HE; now right]. }
  assert (PA : forall l v, perform (emit quiet 0) (l ++ [a]) v = (v <- perform (emit quiet 0) l v ;; perform (emit quiet 0) [a] v)).
  { clear. induction l as [|x l IH]; intros v; [reflexivity|]. cbn [app perform]. destruct x; match goal with |- bind ?e _ = _ => destruct e; cbn [bind]; [apply IH | reflexivity] end. }
  rewrite PA in E. apply bind_inv in E. destruct E as (w0 & E0 & E). apply Forall_app in NA. destruct NA as (N1 & N2). inversion N2 as [|? ? N3 _]; subst. assert (B0 : bounded w0) by (apply (bounded_le w0 w1 HB); exact (perform_heap (emit quiet 0) [a] HM _ _ E)).
  destruct (R pre w w0 H HI N1 E0 B0 HP) as (R0 & I0). rewrite perform_simple in E by assumption. apply bind_inv in E. destruct E as (w2 & E & E2). injection E2 as ->. destruct (act_connected w0 s id a w1 R0 I0 N3 E HB) as (R1 & C1).
  destruct (owned w1 id) eqn:O; [|reflexivity]. assert (IC : IsConnected w1 (Some id) = true) by (unfold IsConnected, lock; now rewrite O). apply (C50_is_connected w1 id R1) in IC. destruct IC as (t & IC).
  assert (t = s); [|subst; apply C1 in IC; congruence].
  destruct a as [c|u|u|u]; cbn [ends] in HA; try discriminate.
  - apply Nat.eqb_eq in HA. subst c. destruct (C50_disconnect w0 id R0) as (w3 & E3 & _ & C & _). cbn [simple_action] in E. rewrite E in E3. injection E3 as <-. rewrite C in IC. apply without_in in IC. now destruct IC.
  - apply Nat.eqb_eq in HA. subst u. cbn [simple_action] in E. assert (LV : lives w0 s) by (unfold sig_clear in E; apply bind_inv in E; destruct E as (x & E & _); exact (lives_at _ _ _ E)). destruct (C50_clear w0 s R0 LV) as (w3 & E3 & _ & C). rewrite E in E3. injection E3 as <-. rewrite C in IC. destruct (Nat.eq_dec t s) as [|D]; [assumption|]. rewrite (proj2 (Nat.eqb_neq t s) D) in IC. exact (slot_owner w0 id t s R0 IC I0).
Qed.
Print Assumptions C118_captures_partial.
Print Assumptions C118_captures_refuted.
Example C118_example : match history quiet 0 (start 1) [AConnect 0; AConnect 0] with
  | Done w => run_captured 0 [AConnect 0; ADisconnect 1; ADisconnect 0] w <> Fault FUB /\ run_captured 0 [AConnect 0; ADisconnect 0; ADisconnect 1] w = Fault FUB /\ run_captured 0 [AClear 0; AConnect 0] w = Fault FUB
  | Fault _ => False
  end.
Proof. vm_compute. repeat split. discriminate. Qed.
