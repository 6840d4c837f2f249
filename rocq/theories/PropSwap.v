(** C153: std::swap exchanges two objects. *)
From Verif Require Import Base VectorModel VectorSpec CellProofs VectorProofs VectorCopy PropVector StackModel StackProofs SwapModel.
From Verif Require MovableModel ResultModel SignalModel SignalSpec SignalHistory PropSignal.

Local Ltac crunch := repeat match goal with |- _ /\ _ => split end; (vm_compute; reflexivity).

(** ** The Movable classes, Result *)
Theorem C153_movable : forall (T : Type) (DefaultValue : T) (moved : T -> T) (a b : T) (p q : option T),
  fst (lit_swap DefaultValue a b) = (b, a) /\ fst (ptr_swap p q) = (q, p) /\ fst (val_swap moved a b) = (b, a).
Proof. intros. repeat split; reflexivity. Qed.
Print Assumptions C153_movable.
(** tmp ends with the default value or nullptr: nothing is owned twice. *)
Theorem C153_movable_left : forall (T : Type) (DefaultValue a b : T) (p q : option T),
  snd (lit_swap DefaultValue a b) = DefaultValue /\ snd (ptr_swap p q) = None.
Proof. intros. split; reflexivity. Qed.
Print Assumptions C153_movable_left.

Theorem C153_result : forall (V E : Type) (movedV : V -> V) (movedE : E -> E) (a b : ResultModel.result V E),
  res_swap movedV movedE false false a b = (b, a, false).
Proof. intros. unfold res_swap. destruct a, b; reflexivity. Qed.
Print Assumptions C153_result.
Theorem C153_result_void : forall (E : Type) (movedE : E -> E) (a b : option E), fst (void_swap movedE a b) = (b, a).
Proof. intros. reflexivity. Qed.
Print Assumptions C153_result_void.
(** When the last move throws, the first value is in neither of the two: Result gives no strong guarantee here. *)
Theorem C153_result_throw_refuted : forall (V E : Type) (movedV : V -> V) (movedE : E -> E) (v : V) (e : E),
  res_swap movedV movedE false true (ResultModel.RVal v) (ResultModel.RErr e) = (ResultModel.RErr e, ResultModel.RValueless, true).
Proof. intros. reflexivity. Qed.
Print Assumptions C153_result_throw_refuted.
(** When the first one throws, the exception leaves with the second object as it was. *)
Theorem C153_result_first_throw : forall (V E : Type) (movedV : V -> V) (movedE : E -> E) (t : bool) (a b : ResultModel.result V E), b <> ResultModel.RValueless ->
  exists a', res_swap movedV movedE true t a b = (a', b, true).
Proof. intros V E mV mE t a b H. destruct b as [v|e|]; [| |now destruct H]; destruct a; eexists; reflexivity. Qed.
Print Assumptions C153_result_first_throw.
Example C153_movable_example : fst (lit_swap 0 3 4) = (4, 3) /\ fst (ptr_swap (Some 1) None) = (None, Some 1).
Proof. split; reflexivity. Qed.
Example C153_result_example : res_swap S S false false (ResultModel.RVal 1) (ResultModel.RErr 2) = (ResultModel.RErr 2, ResultModel.RVal 1, false).
Proof. reflexivity. Qed.

(** ** StackVector, StackArray: the two are exchanged, but the end of tmp, which has the size of the first one and no memory, is undefined
    as soon as the first one has two elements. *)
Theorem C153_stack_vector_partial : forall (A : Type) (dflt : A) h a b, sv_swap dflt h a b = if v_size a <=? 1 then Done (h, b, a) else Fault FUB.
Proof.
  intros A dflt h [ca sa pa] [cb sb pb]. unfold sv_swap, std_swap, sv_move, sv_move_assign. cbn [v_capacity v_size v_ptr].
  rewrite sv_destroy_eq. cbn [v_size v_ptr]. rewrite destroy_null. destruct (sa <=? 1); reflexivity.
Qed.
Print Assumptions C153_stack_vector_partial.
Theorem C153_stack_array_partial : forall (A : Type) (h : list (list (cell A))) a b, sa_swap h a b = if a_size a <=? 1 then Done (h, b, a) else Fault FUB.
Proof.
  intros A h [sa pa] [sb pb]. unfold sa_swap, std_swap, sa_move, sa_move_assign, sa_destroy. cbn [a_size a_ptr].
  rewrite destroy_null. destruct (sa <=? 1); reflexivity.
Qed.
Print Assumptions C153_stack_array_partial.
(** So the order of the arguments matters. *)
Example C153_stack_example : sv_swap 0 [[Obj (Some 1); Obj (Some 2)]; [Raw]] (SV 2 2 (Some 0)) (SV 1 0 (Some 1)) = Fault FUB /\
  sv_swap 0 [[Obj (Some 1); Obj (Some 2)]; [Raw]] (SV 1 0 (Some 1)) (SV 2 2 (Some 0)) = Done ([[Obj (Some 1); Obj (Some 2)]; [Raw]], SV 2 2 (Some 0), SV 1 0 (Some 1)).
Proof. split; reflexivity. Qed.

(** ** FixedVector, HybridVector: both inside of the object, or both in the std::vector: exchanged, and tmp leaves no object behind. *)
Theorem C153_vector_partial : forall (A : Type) has cap (a b : fvec A) qa qb, state has cap a qa -> state has cap b qb -> IsUsingFallback has a = IsUsingFallback has b ->
  exists a' b', vec_swap has cap a b = Done (a', b', repeat Raw cap) /\ state has cap a' qb /\ state has cap b' qa.
Proof.
  intros A has cap a b qa qb [(-> & La)|(Hh & ->)] [(-> & Lb)|(Hh' & ->)] HU.
  - exists (inl cap qb), (inl cap qa). split; [|split; left; auto]. unfold vec_swap. rewrite move_inl by exact La. cbn [bind].
    rewrite (move_assign_from_inline has cap _ 0 1 (inl cap) (repeat None (length qa)) qb) by (try reflexivity; auto; try (now left); left; now rewrite repeat_length). cbn [bind upd m_size inl]. rewrite andb_false_r.
    rewrite (move_assign_from_inline has cap _ 1 2 (inl cap) (repeat None (length qb)) qa) by (try reflexivity; auto; try (now left); left; now rewrite repeat_length). cbn [bind upd m_size inl vget nth_error]. rewrite andb_false_r.
    unfold fv_destroy. rewrite clear_inl by (now rewrite repeat_length). cbn [bind]. now rewrite inl_data, Nat.sub_0_r.
  - exfalso. rewrite fb_inl, fb_spl in HU by assumption. discriminate.
  - exfalso. rewrite fb_inl, fb_spl in HU by assumption. discriminate.
  - exists (spl cap qb), (spl cap qa). split; [|split; right; auto]. unfold vec_swap. rewrite move_spl by exact Hh. cbn [bind].
    rewrite (move_assign_from_spilled has cap _ 0 1 (spl cap []) qb) by auto. cbn [bind upd].
    rewrite (move_assign_from_spilled has cap _ 1 2 (spl cap []) qa) by auto. cbn [bind upd vget nth_error].
    unfold fv_destroy, fv_clear. rewrite fb_spl by assumption. reflexivity.
Qed.
Print Assumptions C153_vector_partial.
(** One inside, one in the std::vector: the values are exchanged, but the elements of the one inside are never destroyed: moved from when it
    is the first one, with their values when it is the second one. *)
Theorem C153_vector_inside_first_refuted : forall (A : Type) cap (qa qb : list (option A)), length qa <= cap ->
  exists a', vec_swap true cap (inl cap qa) (spl cap qb) = Done (a', spl cap qa, repeat Raw cap) /\ (forall i, i < length qb -> fv_at true a' i = Done (nth i qb None)) /\
  fv_size true a' = length qb /\ fv_destroy true a' = Done (repeat (Obj None) (length qa) ++ repeat Raw (cap - length qa)).
Proof.
  intros A cap qa qb La. exists (FV FallbackInUse (map Obj (repeat None (length qa)) ++ repeat Raw (cap - length qa)) qb). split.
  - unfold vec_swap. rewrite move_inl by exact La. cbn [bind].
    rewrite (move_assign_from_spilled true cap _ 0 1 (inl cap (repeat None (length qa))) qb) by auto. cbn [bind upd]. rewrite inl_data, repeat_length.
    rewrite (move_assign_from_inline true cap _ 1 2 (spl cap) [] qa) by (try reflexivity; auto; try (now right); left; cbn; lia). cbn [bind upd m_size spl andb vget nth_error].
    unfold fv_destroy. rewrite clear_inl by exact La. cbn [bind]. rewrite inl_data. cbn [map length app]. now rewrite Nat.sub_0_r.
  - split; [|split; [reflexivity|]].
    + intros i Hi. unfold fv_at, fv_load, fv_size, IsUsingFallback. cbn [andb m_size fallback]. replace (i <? length qb) with true by lia. cbn [assert bind]. now apply vget_done.
    + unfold fv_destroy, fv_clear, IsUsingFallback. cbn [andb m_size bind m_data]. do 2 f_equal. generalize (length qa). intros k. induction k as [|k IH]; [reflexivity|]. cbn [repeat map]. now rewrite IH.
Qed.
Print Assumptions C153_vector_inside_first_refuted.
Theorem C153_vector_inside_second_refuted : forall (A : Type) cap (qa qb : list (option A)), length qb <= cap ->
  exists b', vec_swap true cap (spl cap qa) (inl cap qb) = Done (spl cap qb, b', repeat Raw cap) /\ (forall i, i < length qa -> fv_at true b' i = Done (nth i qa None)) /\
  fv_size true b' = length qa /\ fv_destroy true b' = Done (map Obj qb ++ repeat Raw (cap - length qb)).
Proof.
  intros A cap qa qb Lb. exists (FV FallbackInUse (map Obj qb ++ repeat Raw (cap - length qb)) qa). split.
  - unfold vec_swap. rewrite move_spl by reflexivity. cbn [bind].
    rewrite (move_assign_from_inline true cap _ 0 1 (spl cap) [] qb) by (try reflexivity; auto; try (now right); left; cbn; lia). cbn [bind upd m_size spl andb].
    rewrite (move_assign_from_spilled true cap _ 1 2 (inl cap qb) qa) by auto. cbn [bind upd vget nth_error]. rewrite inl_data.
    reflexivity.
  - split; [|split; [reflexivity|]].
    + intros i Hi. unfold fv_at, fv_load, fv_size, IsUsingFallback. cbn [andb m_size fallback]. replace (i <? length qa) with true by lia. cbn [assert bind]. now apply vget_done.
    + reflexivity.
Qed.
Print Assumptions C153_vector_inside_second_refuted.
Example C153_vector_example : vec_swap true 2 (inl 2 [Some 1; Some 2]) (inl 2 [Some 3]) = Done (inl 2 [Some 3], inl 2 [Some 1; Some 2], [Raw; Raw]) /\
  vec_swap true 1 (spl 1 [Some 1; Some 2]) (inl 1 [Some 3]) = Done (spl 1 [Some 3], FV FallbackInUse [Obj (Some 3)] [Some 1; Some 2], [Raw]).
Proof. split; reflexivity. Qed.

(** ** The same object twice *)
Theorem C153_self_movable : forall (T : Type) (DefaultValue a : T) (p : option T), lit_swap_self DefaultValue a = (a, DefaultValue) /\ ptr_swap_self p = (p, None).
Proof. intros. split; reflexivity. Qed.
Print Assumptions C153_self_movable.
Theorem C153_self_stack_partial : forall (A : Type) (dflt : A) (h : list (list (cell A))) (v : svec) (a : sarr),
  sv_swap_self dflt h v = (if v_size v <=? 1 then Done (h, v) else Fault FUB) /\ sa_swap_self h a = (if a_size a <=? 1 then Done (h, a) else Fault FUB).
Proof.
  intros A dflt h [cv sv pv] [sa pa]. split.
  - unfold sv_swap_self, std_swap_self, sv_move, sv_move_assign. cbn [v_capacity v_size v_ptr]. rewrite sv_destroy_eq. cbn [v_size v_ptr]. rewrite destroy_null. destruct (sv <=? 1); reflexivity.
  - unfold sa_swap_self, std_swap_self, sa_move, sa_move_assign, sa_destroy. cbn [a_size a_ptr]. rewrite destroy_null. destruct (sa <=? 1); reflexivity.
Qed.
Print Assumptions C153_self_stack_partial.
Theorem C153_self_vector : forall (A : Type) has cap (a : fvec A) q, state has cap a q -> vec_swap_self has cap a = Done (a, repeat Raw cap).
Proof.
  intros A has cap a q [(-> & L)|(Hh & ->)]; unfold vec_swap_self.
  - rewrite move_inl by exact L. cbn [bind]. rewrite (move_assign_self_inline has cap _ 0 (repeat None (length q))) by (try reflexivity; now rewrite repeat_length). cbn [bind upd].
    rewrite (move_assign_from_inline has cap _ 0 1 (inl cap) [] q) by (try reflexivity; auto; try (now left); left; cbn; lia). cbn [bind upd m_size inl vget nth_error]. rewrite andb_false_r.
    unfold fv_destroy. rewrite clear_inl by (now rewrite repeat_length). cbn [bind]. now rewrite inl_data, Nat.sub_0_r.
  - rewrite move_spl by exact Hh. cbn [bind].
    assert (E : fv_move_assign has cap [spl cap []; spl cap q] 0 0 = Done [spl cap []; spl cap q]) by (rewrite Hh; reflexivity).
    rewrite E. cbn [bind]. rewrite (move_assign_from_spilled has cap _ 0 1 (spl cap []) q) by auto. cbn [bind upd vget nth_error].
    unfold fv_destroy, fv_clear. rewrite fb_spl by assumption. reflexivity.
Qed.
Print Assumptions C153_self_vector.
Example C153_self_example : vec_swap_self true 2 (inl 2 [Some 1; Some 2]) = Done (inl 2 [Some 1; Some 2], [Raw; Raw]) /\ vec_swap_self true 1 (spl 1 [Some 1; Some 2]) = Done (spl 1 [Some 1; Some 2], [Raw]).
Proof. split; reflexivity. Qed.

(** ** Connections, guards, signals *)
Theorem C153_guard : forall (w : SignalModel.world) (a b : option nat), guard_swap w a b = Done (w, b, a).
Proof. intros w a b. reflexivity. Qed.
Print Assumptions C153_guard.

Import SignalModel SignalSpec SignalHistory PropSignal.
Lemma spilled_dec w s : spilled w s \/ ~ spilled w s.
Proof.
  unfold spilled. destruct (nth_error (sigs w) s) as [[x|]|].
  - destruct (m_size (m_slots x)) eqn:E; [right|left; eauto]. intros (y & K & F). injection K as <-. congruence.
  - right. intros (y & K & _). discriminate.
  - right. intros (y & K & _). discriminate.
Qed.
Definition several (w : world) (s : nat) : Prop := 2 <= length (connected (trace w) s) \/ connected (trace w) s = [].
Lemma movable_to_empty w d s : reached w -> lives w s -> several w s -> connected (trace w) d = [] -> movable w d s.
Proof.
  intros R L [H|H] E.
  - right. split; [now apply spilled_two | now right].
  - destruct (spilled_dec w s) as [K|K]; [right; auto | left; auto].
Qed.
Lemma same_lives_of w w' d s : reached w -> lives w d -> lives w s -> d <> s -> movable w d s -> sig_move_assign w d s = Done w' -> forall t, lives w' t <-> lives w t.
Proof.
  intros R LD LS D M E t. destruct (reached_keeps w R) as (K & _). destruct (move_keeps w d s K LD LS D M) as (w1 & E1 & _ & _ & _ & SL). rewrite E in E1. injection E1 as <-. pose proof (SL t) as H. split; intros HK; now apply H.
Qed.

(** Two signals, each with several slots or none: each calls the slots of the other afterwards, all connections are as before. *)
Theorem C153_signal_partial : forall w a b, reached w -> lives w a -> lives w b -> a <> b -> several w a -> several w b ->
  exists w', sig_swap w a b = Done w' /\ reached w' /\ lives w' a /\ lives w' b /\
    connected (trace w') a = connected (trace w) b /\ connected (trace w') b = connected (trace w) a /\
    (forall t, t <> a -> t <> b -> connected (trace w') t = connected (trace w) t) /\
    forall id, IsConnected w' (Some id) = IsConnected w (Some id).
Proof.
  intros w a b R La Lb Hab Sa Sb. set (n := length (sigs w)).
  assert (Hn : forall t, lives w t -> t < n) by (intros t (x & K); apply nth_error_Some; unfold n; congruence).
  pose proof (Hn a La) as Ha. pose proof (Hn b Lb) as Hb.
  assert (R0 : reached (sig_new w)) by now apply r_new.
  assert (Ln : lives (sig_new w) n) by (exists new_signal; cbn [sig_new sigs]; unfold n; now rewrite nth_error_app2, Nat.sub_diag by lia).
  assert (L0 : forall t, lives w t -> lives (sig_new w) t) by (intros t L; pose proof (Hn t L); destruct L as (x & K); exists x; cbn [sig_new sigs]; now rewrite nth_error_app1 by assumption).
  assert (Cn : connected (trace w) n = []) by (destruct (reached_keeps w R) as ((_ & V) & _); apply V; intros L; pose proof (Hn n L); lia).
  assert (M0 : movable (sig_new w) n a) by (apply movable_to_empty; auto).
  destruct (C52_move_partial (sig_new w) n a R0 Ln (L0 a La) ltac:(lia) M0) as (w1 & E1 & R1 & Ln1 & La1 & C1n & C1a & C1 & I1).
  pose proof (same_lives_of _ _ _ _ R0 Ln (L0 a La) ltac:(lia) M0 E1) as SL1. cbn [sig_new trace] in C1n, C1a, C1, I1.
  assert (Lb1 : lives w1 b) by (apply SL1; auto).
  assert (C1b : connected (trace w1) b = connected (trace w) b) by (apply C1; lia).
  assert (M1 : movable w1 a b) by (apply movable_to_empty; auto; unfold several; now rewrite C1b).
  destruct (C52_move_partial w1 a b R1 La1 Lb1 Hab M1) as (w2 & E2 & R2 & La2 & Lb2 & C2a & C2b & C2 & I2).
  pose proof (same_lives_of _ _ _ _ R1 La1 Lb1 Hab M1 E2) as SL2.
  assert (Ln2 : lives w2 n) by (apply SL2; exact Ln1).
  assert (C2n : connected (trace w2) n = connected (trace w) a) by (rewrite C2 by lia; exact C1n).
  assert (M2 : movable w2 b n) by (apply movable_to_empty; auto; unfold several; now rewrite C2n).
  destruct (C52_move_partial w2 b n R2 Lb2 Ln2 ltac:(lia) M2) as (w3 & E3 & R3 & Lb3 & Ln3 & C3b & C3n & C3 & I3).
  pose proof (same_lives_of _ _ _ _ R2 Lb2 Ln2 ltac:(lia) M2 E3) as SL3.
  destruct (C50_destroy w3 n R3 Ln3) as (w4 & E4 & R4 & _ & C4).
  exists w4. assert (LV : forall t, t <> n -> lives w3 t -> lives w4 t).
  { intros t Ht L. destruct (reached_keeps w3 R3) as (K & _). destruct (destroy_keeps w3 n K Ln3) as (w5 & E5 & _ & _ & _ & H5). rewrite E4 in E5. injection E5 as <-. now apply H5. }
  assert (CA : connected (trace w4) a = connected (trace w) b) by (rewrite C4; replace (a =? n) with false by lia; rewrite C3 by lia; now rewrite C2a, C1b).
  assert (CB : connected (trace w4) b = connected (trace w) a) by (rewrite C4; replace (b =? n) with false by lia; now rewrite C3b).
  assert (CO : forall t, t <> a -> t <> b -> connected (trace w4) t = connected (trace w) t).
  { intros t Ta Tb. rewrite C4. destruct (Nat.eqb_spec t n) as [->|Tn]; [now rewrite Cn|]. rewrite C3, C2, C1 by auto. reflexivity. }
  split; [|split; [exact R4|split; [apply LV; [lia | now apply SL3]|split; [apply LV; [lia | exact Lb3]|split; [exact CA|split; [exact CB|split; [exact CO|]]]]]]].
  - unfold sig_swap, sig_move. fold n. rewrite E1. cbn [bind]. rewrite E2. cbn [bind]. rewrite E3. cbn [bind]. exact E4.
  - intros id. apply eq_true_iff_eq. rewrite (C50_is_connected w4 id R4), (C50_is_connected w id R). split; intros (t & H).
    + destruct (Nat.eq_dec t a) as [->|Ta]; [exists b; now rewrite <- CA|]. destruct (Nat.eq_dec t b) as [->|Tb]; [exists a; now rewrite <- CB|]. exists t. now rewrite <- CO.
    + destruct (Nat.eq_dec t a) as [->|Ta]; [exists b; now rewrite CB|]. destruct (Nat.eq_dec t b) as [->|Tb]; [exists a; now rewrite CA|]. exists t. now rewrite CO.
Qed.
Print Assumptions C153_signal_partial.

(** Signal 0 with two slots, signal 1 with one (slot 2): afterwards signal 0 calls slot 2 as it should, but slot 2 can not be disconnected any more:
    its connection stays connected, although signal 0 no longer calls it. In the other order all is well. *)
Definition two_one (first second : nat) : outcome world := history quiet 0 (start 2) [AConnect first; AConnect first; AConnect second].
Theorem C153_signal_refuted : exists w w1 w2 w3, two_one 0 1 = Done w /\ reached w /\ sig_swap w 0 1 = Done w1 /\
  conn_disconnect w1 (Some 2) = Done w2 /\ IsConnected w2 (Some 2) = true /\ emit quiet 9 w2 0 = Done w3 /\ calls (skipn (length (trace w2)) (trace w3)) = [].
Proof.
  destruct (two_one 0 1) as [w|] eqn:E; [|vm_compute in E; discriminate]. exists w.
  assert (R : reached w) by (apply (reached_history _ _ _ _ _ (r_start 2) E); vm_compute in E; injection E as <-; reflexivity). vm_compute in E. injection E as <-.
  eexists _, _, _. split; [reflexivity|]. split; [exact R|]. crunch.
Qed.
Print Assumptions C153_signal_refuted.
Example C153_signal_other_order : exists w w1 w2 w3, two_one 1 0 = Done w /\ sig_swap w 0 1 = Done w1 /\
  conn_disconnect w1 (Some 2) = Done w2 /\ IsConnected w2 (Some 2) = false /\ emit quiet 9 w1 0 = Done w3 /\ calls (skipn (length (trace w1)) (trace w3)) = [0; 1].
Proof. eexists _, _, _, _. crunch. Qed.
Example C153_signal_example : exists w w1 w2 w3, history quiet 0 (start 2) [AConnect 0; AConnect 1; AConnect 0; AConnect 1] = Done w /\ sig_swap w 0 1 = Done w1 /\
  emit quiet 9 w1 0 = Done w2 /\ calls (skipn (length (trace w1)) (trace w2)) = [1; 3] /\ emit quiet 9 w1 1 = Done w3 /\ calls (skipn (length (trace w1)) (trace w3)) = [0; 2].
Proof. eexists _, _, _, _. crunch. Qed.
