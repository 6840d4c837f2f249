(** Properties C31-C37: FixedVector and HybridVector. *)
From Verif Require Import CellModel CellProofs VectorSpec VectorModel VectorProofs VectorHistory VectorCopy.

(** What a user sees of a vector [v] whose contents are the sequence [l]: size, empty, element access (asserting out of range), front and back;
    and destroying it leaves no live object in its storage. *)
Definition shows {A} (has : bool) (cap : nat) (v : fvec A) (l : list A) : Prop :=
  fv_size has v = length l /\
  fv_empty has v = (match l with [] => true | _ => false end) /\
  (forall i, fv_at has v i = match nth_error l i with Some a => Done (Some a) | None => Fault FAssert end) /\
  fv_front has v = (match l with [] => Fault FAssert | a :: _ => Done (Some a) end) /\
  fv_back has v = (match rev l with [] => Fault FAssert | a :: _ => Done (Some a) end) /\
  fv_destroy has v = Done (repeat Raw cap).

Lemma rep_shows {A} has cap (v : fvec A) l : rep has cap v l -> shows has cap v l.
Proof.
  intros R. pose proof (rep_size has cap v l R) as S. pose proof (rep_empty has cap v l R) as E.
  split; [exact S|]. split; [rewrite E; now destruct l|]. split; [|split; [|split; [|exact (destroy_rep has cap v l R)]]].
  - intros i. unfold fv_at. rewrite S. destruct (nth_error l i) as [a|] eqn:N.
    + assert (i < length l) by (apply nth_error_Some; congruence). replace (i <? length l) with true by lia. cbn [assert bind].
      rewrite (rep_load has cap v l i a R) by assumption. now rewrite (nth_error_nth _ _ _ N).
    + apply nth_error_None in N. now replace (i <? length l) with false by lia.
  - unfold fv_front. rewrite E. destruct l as [|a l]; [reflexivity|]. cbn [length Nat.eqb negb assert bind]. rewrite (rep_load has cap v (a :: l) 0 a R) by (simpl; lia). reflexivity.
  - unfold fv_back. rewrite E, S. destruct (rev l) as [|a r] eqn:ER.
    + apply (f_equal (@rev A)) in ER. rewrite rev_involutive in ER. now subst l.
    + apply (f_equal (@rev A)) in ER. rewrite rev_involutive in ER. simpl in ER. subst l. rewrite app_length. cbn [length]. replace (length (rev r) + 1 =? 0) with false by lia.
      cbn [negb assert bind]. rewrite (rep_load has cap v _ _ a R) by (rewrite app_length; simpl; lia). do 2 f_equal. rewrite app_nth2 by lia. replace (length (rev r) + 1 - 1 - length (rev r)) with 0 by lia. reflexivity.
Qed.

(** *** C31 *)
(** Any history the bounded sequence accepts leads to the same contents and the same returned positions. *)
Theorem C31_vector_history : forall (A : Type) cap (dflt : A) ops l rs, s_run (Some cap) dflt [] ops = Done (l, rs) ->
  exists v, fv_run false cap dflt (fv_new cap) ops = Done (v, rs) /\ shows false cap v l.
Proof.
  intros A cap dflt ops l rs E. destruct (run_done false cap dflt ops (fv_new cap) [] l rs (rep_new false cap) E) as (v & E' & R).
  exists v. split; [exact E' | now apply rep_shows].
Qed.
Print Assumptions C31_vector_history.
(** Any history it refuses (capacity exceeded, position out of range) ends in an assertion. *)
Theorem C31_vector_refuses : forall (A : Type) cap (dflt : A) ops f, (forall i, ~ In (EraseRange i i) ops) -> s_run (Some cap) dflt [] ops = Fault f ->
  fv_run false cap dflt (fv_new cap) ops = Fault FAssert.
Proof.
  intros A cap dflt ops f P E. destruct (run_fault false cap dflt ops (fv_new cap) [] f (rep_new false cap)) as (f' & -> & H); trivial.
  - apply Forall_forall. intros o Ho i ->. exact (P i Ho).
  - now rewrite (H eq_refl).
Qed.
Print Assumptions C31_vector_refuses.
(** Construction from a size and a value, or from a sequence of elements. *)
Theorem C31_vector_construct : forall (A : Type) cap (dflt a : A) n (l : list A), n <= cap -> length l <= cap ->
  (exists v, fv_new_size false cap n a = Done v /\ shows false cap v (repeat a n)) /\ (exists v, fv_new_list false cap dflt l = Done v /\ shows false cap v l).
Proof.
  intros A cap dflt a n l Hn Hl. split.
  - destruct (new_size_rep false cap n a) as (v & E & R); [simpl; lia|]. exists v. split; [exact E | now apply rep_shows].
  - destruct (new_list_rep false cap dflt l) as (v & E & R); [simpl; lia|]. exists v. split; [exact E | now apply rep_shows].
Qed.
Print Assumptions C31_vector_construct.
(** An empty range is not checked: erase(it, it) is accepted anywhere, also past the end. *)
Theorem C31_empty_range_refuted : forall (A : Type) cap (dflt : A) i, fv_erase_range false cap dflt (fv_new cap) i i = Done (fv_new cap, i).
Proof. intros. unfold fv_erase_range. simpl. now rewrite Nat.eqb_refl. Qed.
Print Assumptions C31_empty_range_refuted.
Definition demo_ops : list (vop nat) :=
  [PushCopy 1; PushMove 2; Insert 1 3; EmplaceBack 4; InsertMove 0 5; EraseRange 1 3; Resize 4; SetAt 3 7; Erase 0; PopBack; ResizeWith 4 8; Reserve 5].
Example C31_nonvacuous : s_run (Some 5) 0 [] demo_ops = Done ([2; 4; 8; 8], [None; None; Some 1; None; Some 0; Some 1; None; None; Some 0; None; None; None])
  /\ s_run (Some 2) 0 [] demo_ops = Fault FAssert /\ (forall i, ~ In (EraseRange i i) demo_ops).
Proof. split; [reflexivity|]. split; [reflexivity|]. intros i H. cbn in H. intuition congruence. Qed.

(** *** C32 *)
(** No history does anything undefined (constructing over a live object, destroying or reading a dead one, leaving the storage),
    and after destruction no live object remains in the storage. *)
Theorem C32_lifetimes : forall (A : Type) cap (dflt : A) ops, (forall i, ~ In (EraseRange i i) ops) ->
  match fv_run false cap dflt (fv_new cap) ops with
  | Done (v, _) => fv_destroy false v = Done (repeat Raw cap)
  | Fault f => f = FAssert
  end.
Proof.
  intros A cap dflt ops P. destruct (s_run (Some cap) dflt [] ops) as [[l rs]|f] eqn:E.
  - destruct (C31_vector_history A cap dflt ops l rs E) as (v & -> & S). apply S.
  - now rewrite (C31_vector_refuses A cap dflt ops f P E).
Qed.
Print Assumptions C32_lifetimes.
(** The same with the fallback, for histories that respect the preconditions: at every moment the live objects are exactly the elements. *)
Theorem C32_lifetimes_hybrid : forall (A : Type) cap (dflt : A) ops l rs, s_run None dflt [] ops = Done (l, rs) ->
  exists v, fv_run true cap dflt (fv_new cap) ops = Done (v, rs) /\ fv_destroy true v = Done (repeat Raw cap) /\
    length (filter (fun c => match c with Obj _ => true | Raw => false end) (m_data v)) + length (fallback v) = length l.
Proof.
  intros A cap dflt ops l rs E. destruct (run_done true cap dflt ops (fv_new cap) [] l rs (rep_new true cap) E) as (v & E' & R).
  exists v. split; [exact E'|]. split; [now apply (destroy_rep true cap v l)|].
  assert (F1 : forall q : list (option A), filter (fun c => match c with Obj _ => true | Raw => false end) (map Obj q) = map Obj q) by (induction q; simpl; congruence).
  assert (F2 : forall n, filter (fun c : cell A => match c with Obj _ => true | Raw => false end) (repeat Raw n) = []) by (induction n; simpl; congruence).
  destruct R as [(-> & HL)|(_ & ->)]; cbn [m_data fallback inl spl]; rewrite ?filter_app, ?F1, ?F2, ?app_nil_r, !map_length; simpl; lia.
Qed.
Print Assumptions C32_lifetimes_hybrid.
Example C32_nonvacuous : exists v r, fv_run false 5 0 (fv_new 5) demo_ops = Done (v, r) /\ m_data v = [Obj (Some 2); Obj (Some 4); Obj (Some 8); Obj (Some 8); Raw].
Proof. do 2 eexists. split; [vm_compute; reflexivity | vm_compute; reflexivity]. Qed.

(** *** C33 *)
(** Whatever the inline capacity, a HybridVector follows the unbounded sequence. *)
Theorem C33_hybrid_history : forall (A : Type) cap (dflt : A) ops l rs, s_run None dflt [] ops = Done (l, rs) ->
  exists v, fv_run true cap dflt (fv_new cap) ops = Done (v, rs) /\ shows true cap v l.
Proof.
  intros A cap dflt ops l rs E. destruct (run_done true cap dflt ops (fv_new cap) [] l rs (rep_new true cap) E) as (v & E' & R).
  exists v. split; [exact E' | now apply rep_shows].
Qed.
Print Assumptions C33_hybrid_history.
(** Two capacities are indistinguishable. *)
Theorem C33_capacity_unobservable : forall (A : Type) cap1 cap2 (dflt : A) ops l rs, s_run None dflt [] ops = Done (l, rs) ->
  exists v1 v2, fv_run true cap1 dflt (fv_new cap1) ops = Done (v1, rs) /\ fv_run true cap2 dflt (fv_new cap2) ops = Done (v2, rs) /\
    fv_size true v1 = fv_size true v2 /\ forall i, fv_at true v1 i = fv_at true v2 i.
Proof.
  intros A cap1 cap2 dflt ops l rs E. destruct (C33_hybrid_history A cap1 dflt ops l rs E) as (v1 & E1 & (S1 & _ & G1 & _)).
  destruct (C33_hybrid_history A cap2 dflt ops l rs E) as (v2 & E2 & (S2 & _ & G2 & _)). exists v1, v2. split; [exact E1|]. split; [exact E2|].
  split; [congruence|]. intros i. now rewrite G1, G2.
Qed.
Print Assumptions C33_capacity_unobservable.
Theorem C33_hybrid_construct : forall (A : Type) cap (dflt a : A) n (l : list A),
  (exists v, fv_new_size true cap n a = Done v /\ shows true cap v (repeat a n)) /\ (exists v, fv_new_list true cap dflt l = Done v /\ shows true cap v l).
Proof.
  intros A cap dflt a n l. split.
  - destruct (new_size_rep true cap n a eq_refl) as (v & E & R). exists v. split; [exact E | now apply rep_shows].
  - destruct (new_list_rep true cap dflt l eq_refl) as (v & E & R). exists v. split; [exact E | now apply rep_shows].
Qed.
Print Assumptions C33_hybrid_construct.
(** What the sequence refuses never succeeds, but once spilled pop_back on an empty vector is no longer an assertion. *)
Theorem C33_hybrid_refuses : forall (A : Type) cap (dflt : A) ops f, (forall i, ~ In (EraseRange i i) ops) -> s_run None dflt [] ops = Fault f ->
  exists f', fv_run true cap dflt (fv_new cap) ops = Fault f'.
Proof.
  intros A cap dflt ops f P E. destruct (run_fault true cap dflt ops (fv_new cap) [] f (rep_new true cap)) as (f' & -> & H); trivial; [|eauto].
  apply Forall_forall. intros o Ho i ->. exact (P i Ho).
Qed.
Print Assumptions C33_hybrid_refuses.
Theorem C33_spilled_pop_refuted : forall (A : Type) cap (dflt : A), fv_run true cap dflt (fv_new cap) [Reserve (cap + 1); PopBack] = Fault FUB.
Proof.
  intros A cap dflt. cbn [fv_run fv_apply]. replace (fv_new cap) with (inl cap (@nil (option A))) by (unfold inl, fv_new; simpl; now rewrite Nat.sub_0_r).
  rewrite reserve_inl by (simpl; lia). replace (cap + 1 <=? cap) with false by lia. reflexivity.
Qed.
Print Assumptions C33_spilled_pop_refuted.
Example C33_nonvacuous : s_run None 0 [] demo_ops = Done ([2; 4; 8; 8], [None; None; Some 1; None; Some 0; Some 1; None; None; Some 0; None; None; None]) /\
  exists v r, fv_run true 2 0 (fv_new 2) demo_ops = Done (v, r) /\ IsUsingFallback true v = true.
Proof. split; [reflexivity|]. do 2 eexists. split; [vm_compute; reflexivity | vm_compute; reflexivity]. Qed.

(** *** C34 *)
(** [v] holds the values [q] (None: a moved-from element), in its storage or in its fallback; every reachable vector does. *)
Definition holding {A} (has : bool) (cap : nat) (v : fvec A) (q : list (option A)) : Prop :=
  (IsUsingFallback has v = true \/ length q <= cap) /\ fv_size has v = length q /\ (forall i, i < length q -> fv_at has v i = Done (nth i q None)) /\
  fv_destroy has v = Done (repeat Raw cap).

(** The states of a vector: inline or spilled. *)
Definition state {A} (has : bool) (cap : nat) (v : fvec A) (q : list (option A)) : Prop := (v = inl cap q /\ length q <= cap) \/ (has = true /\ v = spl cap q).

Theorem C34_state_holding : forall (A : Type) has cap (v : fvec A) q, state has cap v q -> holding has cap v q.
Proof.
  intros A has cap v q [(-> & HL)|(Hh & ->)]; unfold holding.
  - split; [now right|]. split; [now rewrite size_inl|]. split; [intros i Hi; now apply at_inl|]. unfold fv_destroy. rewrite clear_inl by assumption. simpl. now rewrite Nat.sub_0_r.
  - rewrite fb_spl by assumption. assert (S : fv_size has (spl cap q) = length q) by (unfold fv_size; now rewrite fb_spl). split; [now left|]. split; [exact S|]. split.
    + intros i Hi. unfold fv_at, fv_load. rewrite S, fb_spl by assumption. replace (i <? length q) with true by lia. simpl. now apply vget_done.
    + unfold fv_destroy. now rewrite clear_spl.
Qed.
Print Assumptions C34_state_holding.
Theorem C34_reachable_state : forall (A : Type) (has : bool) cap (dflt : A) ops v rs l, s_run (if has then None else Some cap) dflt [] ops = Done (l, rs) ->
  fv_run has cap dflt (fv_new cap) ops = Done (v, rs) -> state has cap v (map Some l).
Proof.
  intros A has cap dflt ops v rs l E E'. destruct (run_done has cap dflt ops (fv_new cap) [] l rs (rep_new has cap) E) as (v' & E2 & R).
  assert (v' = v) by congruence. subst v'. destruct R as [(-> & HL)|R]; [left; now rewrite map_length | right; exact R].
Qed.
Print Assumptions C34_reachable_state.
(** Copy construction. *)
Theorem C34_copy_construct : forall (A : Type) has cap (v : fvec A) q, state has cap v q -> exists v', fv_copy has cap v = Done v' /\ state has cap v' q.
Proof.
  intros A has cap v q [(-> & HL)|(Hh & ->)].
  - rewrite copy_inl by assumption. eexists. split; [reflexivity|]. left. auto.
  - rewrite copy_spl by assumption. eexists. split; [reflexivity|]. right. auto.
Qed.
Print Assumptions C34_copy_construct.
(** Copy assignment: right (and only the target changes) unless the source is spilled while the target holds inline elements, or both are the same inline vector. *)
Theorem C34_copy_assign_partial : forall (A : Type) has cap (st : list (fvec A)) d s vd vs qd qs,
  nth_error st d = Some vd -> nth_error st s = Some vs -> state has cap vd qd -> state has cap vs qs ->
  (d = s -> IsUsingFallback has vs = true) -> (IsUsingFallback has vs = true -> IsUsingFallback has vd = true \/ qd = []) ->
  exists v', fv_assign has cap st d s = Done (upd st d v') /\ state has cap v' qs.
Proof.
  intros A has cap st d s vd vs qd qs Ed Es Sd Ss H1 H2. destruct Ss as [(-> & HL)|(Hh & ->)].
  - assert (Hne : d <> s) by (intros E; specialize (H1 E); rewrite fb_inl in H1; discriminate). destruct Sd as [(-> & HLd)|(Hh & ->)].
    + exists (inl cap qs). split; [apply (assign_from_inline has cap st d s (inl cap) qd qs); trivial; [now left | now left] | left; auto].
    + exists (spl cap qs). split; [apply (assign_from_inline has cap st d s (spl cap) qd qs); trivial; [right; auto | now right] | right; auto].
  - exists (spl cap qs). split; [|right; auto]. rewrite (assign_from_spilled has cap st d s vd qs Hh Ed Es).
    destruct (H2 (fb_spl has cap qs Hh)) as [F|F]; destruct Sd as [(-> & HLd)|(_ & ->)]; try reflexivity.
    + rewrite fb_inl in F. discriminate.
    + subst qd. unfold inl, spl. simpl. now rewrite Nat.sub_0_r.
Qed.
Print Assumptions C34_copy_assign_partial.
(** Assigning an inline vector to itself empties it. *)
Theorem C34_self_assign_refuted : forall (A : Type) has cap (v : fvec A) q, state has cap v q -> IsUsingFallback has v = false ->
  exists v', fv_assign has cap [v] 0 0 = Done [v'] /\ fv_size has v' = 0.
Proof.
  intros A has cap v q [(-> & HL)|(Hh & ->)] F; [|rewrite fb_spl in F by assumption; discriminate].
  exists (inl cap (@nil (option A))). split; [|now rewrite size_inl]. exact (assign_self_inline has cap [inl cap q] 0 q eq_refl HL).
Qed.
Print Assumptions C34_self_assign_refuted.
(** Assigning a spilled vector to one holding inline elements leaves these alive forever: the contents are right, but destroying the target leaves them in its storage. *)
Theorem C34_assign_leak_refuted : forall (A : Type) cap (qd qs : list (option A)), length qd <= cap -> qd <> [] ->
  exists v', fv_assign true cap [inl cap qd; spl cap qs] 0 1 = Done [v'; spl cap qs] /\ (forall i, i < length qs -> fv_at true v' i = Done (nth i qs None)) /\
    fv_destroy true v' = Done (map Obj qd ++ repeat Raw (cap - length qd)).
Proof.
  intros A cap qd qs HL Hne. rewrite (assign_from_spilled true cap [inl cap qd; spl cap qs] 0 1 (inl cap qd) qs eq_refl eq_refl eq_refl). eexists. split; [reflexivity|]. split; [|reflexivity].
  intros i Hi. unfold fv_at, fv_size, fv_load. simpl. replace (i <? length qs) with true by lia. simpl. now apply vget_done.
Qed.
Print Assumptions C34_assign_leak_refuted.
Example C34_nonvacuous : state true 2 (inl 2 [Some 1; None]) [Some 1; None] /\ state true 2 (spl 2 [Some 1; Some 2; Some 3]) [Some 1; Some 2; Some 3] /\
  fv_assign true 2 [spl 2 [Some 9]; inl 2 [Some 1; Some 2]] 0 1 = Done [spl 2 [Some 1; Some 2]; inl 2 [Some 1; Some 2]].
Proof. split; [left; split; [reflexivity | simpl; lia]|]. split; [right; auto | reflexivity]. Qed.

(** *** C35 *)
Theorem C35_move_construct : forall (A : Type) has cap (v : fvec A) q, state has cap v q ->
  exists v' src q', fv_move has cap v = Done (v', src) /\ state has cap v' q /\ state has cap src q'.
Proof.
  intros A has cap v q [(-> & HL)|(Hh & ->)].
  - rewrite move_inl by assumption. do 2 eexists. exists (repeat None (length q)). split; [reflexivity|]. split; [left; auto|]. left. split; [reflexivity | now rewrite repeat_length].
  - rewrite move_spl by assumption. do 2 eexists. exists []. split; [reflexivity|]. split; right; auto.
Qed.
Print Assumptions C35_move_construct.
(** Move assignment between different vectors: the target gets the contents, its former elements are gone, the source stays usable. *)
Theorem C35_move_assign_partial : forall (A : Type) has cap (st : list (fvec A)) d s vd vs qd qs,
  nth_error st d = Some vd -> nth_error st s = Some vs -> state has cap vd qd -> state has cap vs qs -> d <> s ->
  (IsUsingFallback has vs = true -> IsUsingFallback has vd = true \/ qd = []) ->
  exists v' src q', fv_move_assign has cap st d s = Done (upd (upd st d v') s src) /\ state has cap v' qs /\ state has cap src q'.
Proof.
  intros A has cap st d s vd vs qd qs Ed Es Sd Ss Hne H2. destruct Ss as [(-> & HL)|(Hh & ->)].
  - destruct Sd as [(-> & HLd)|(Hh & ->)].
    + exists (inl cap qs). do 2 eexists. split; [apply (move_assign_from_inline has cap st d s (inl cap) qd qs); trivial; [now left | now left]|].
      split; [left; auto|]. cbn. rewrite andb_false_r. left. split; [reflexivity | now rewrite repeat_length].
    + exists (spl cap qs). do 2 eexists. split; [apply (move_assign_from_inline has cap st d s (spl cap) qd qs); trivial; [right; auto | now right]|].
      split; [right; auto|]. cbn. rewrite Hh. left. split; [reflexivity | assumption].
  - exists (spl cap qs), (spl cap (@nil (option A))), [] . split; [|split; right; auto]. rewrite (move_assign_from_spilled has cap st d s vd qs Hh Hne Ed Es).
    destruct (H2 (fb_spl has cap qs Hh)) as [F|F]; destruct Sd as [(-> & HLd)|(_ & ->)]; try reflexivity.
    + rewrite fb_inl in F. discriminate.
    + subst qd. unfold inl, spl. simpl. now rewrite Nat.sub_0_r.
Qed.
Print Assumptions C35_move_assign_partial.
(** The same leak as for the copy. *)
Theorem C35_move_leak_refuted : forall (A : Type) cap (qd qs : list (option A)), length qd <= cap -> qd <> [] ->
  exists v', fv_move_assign true cap [inl cap qd; spl cap qs] 0 1 = Done [v'; spl cap []] /\
    fv_destroy true v' = Done (map Obj qd ++ repeat Raw (cap - length qd)).
Proof.
  intros A cap qd qs HL Hne. rewrite (move_assign_from_spilled true cap [inl cap qd; spl cap qs] 0 1 (inl cap qd) qs eq_refl ltac:(lia) eq_refl eq_refl). eexists. split; reflexivity.
Qed.
Print Assumptions C35_move_leak_refuted.
(** Moving an inline vector onto itself loses its elements. *)
Theorem C35_self_move_refuted : forall (A : Type) has cap (q : list (option A)), length q <= cap ->
  fv_move_assign has cap [inl cap q] 0 0 = Done [inl cap []].
Proof. intros A has cap q HL. exact (move_assign_self_inline has cap [inl cap q] 0 q eq_refl HL). Qed.
Print Assumptions C35_self_move_refuted.
Example C35_nonvacuous : fv_move false 3 (inl 3 [Some 1; Some 2]) = Done (inl 3 [Some 1; Some 2], inl 3 [None; None]) /\
  fv_move_assign true 3 [inl 3 [Some 7]; inl 3 [Some 1; Some 2]] 0 1 = Done [inl 3 [Some 1; Some 2]; inl 3 [None; None]].
Proof. split; reflexivity. Qed.

(** *** C36 *)
(** push_back(v[k]) and insert(i, v[k]) are right: always once spilled, and for push_back below the capacity. *)
Theorem C36_own_push_partial : forall (A : Type) has cap (v : fvec A) q k, state has cap v q -> k < length q -> (IsUsingFallback has v = false -> length q < cap) ->
  exists v', fv_push_back has cap v (OwnElement k) = Done (v', false) /\ state has cap v' (q ++ [nth k q None]).
Proof.
  intros A has cap v q k [(-> & HL)|(Hh & ->)] Hk H.
  - specialize (H (fb_inl has cap q)). rewrite own_push_inl by assumption. eexists. split; [reflexivity|]. left. split; [reflexivity|]. rewrite app_length. simpl. lia.
  - rewrite own_push_spl by assumption. eexists. split; [reflexivity|]. right. auto.
Qed.
Print Assumptions C36_own_push_partial.
Theorem C36_own_insert_partial : forall (A : Type) has cap (v : fvec A) q i k, state has cap v q -> k < length q -> i <= length q ->
  (IsUsingFallback has v = false -> length q < cap /\ (k < i \/ i = length q)) ->
  exists v', fv_insert has cap v i (OwnElement k) = Done (v', i, false) /\ state has cap v' (firstn i q ++ nth k q None :: skipn i q).
Proof.
  intros A has cap v q i k [(-> & HL)|(Hh & ->)] Hk Hi H.
  - destruct (H (fb_inl has cap q)) as [H1 H2]. rewrite own_insert_inl by assumption. replace ((k <? i) || (i =? length q)) with true by lia. eexists. split; [reflexivity|].
    left. split; [reflexivity|]. rewrite app_length. cbn [length]. rewrite firstn_length, skipn_length. lia.
  - rewrite own_insert_spl by assumption. eexists. split; [reflexivity|]. right. auto.
Qed.
Print Assumptions C36_own_insert_partial.
(** At capacity, pushing or inserting one of its own elements reads a destroyed object. *)
Theorem C36_own_spill_refuted : forall (A : Type) cap (q : list (option A)) i k, length q = cap -> i <= length q ->
  fv_push_back true cap (inl cap q) (OwnElement k) = Fault FUB /\ fv_emplace_back true cap (inl cap q) (OwnElement k) = Fault FUB /\
  fv_insert true cap (inl cap q) i (OwnElement k) = Fault FUB.
Proof.
  intros A cap q i k HL Hi. destruct (own_push_full true cap q k eq_refl HL) as [H1 H2]. split; [exact H1|]. split; [exact H2|]. now apply own_insert_full.
Qed.
Print Assumptions C36_own_spill_refuted.
(** Inserting before the element: the destroyed object at the position itself, the previous element after it. *)
Theorem C36_own_insert_refuted : forall (A : Type) has cap (q : list (option A)) i k, length q < cap -> i <= k < length q ->
  fv_insert has cap (inl cap q) i (OwnElement k) =
    if k =? i then Fault FUB else Done (inl cap (firstn i q ++ nth (k - 1) q None :: skipn i q), i, false).
Proof. intros A has cap q i k HL Hk. rewrite own_insert_inl by lia. now replace ((k <? i) || (i =? length q)) with false by lia. Qed.
Print Assumptions C36_own_insert_refuted.
Example C36_nonvacuous : fv_insert false 4 (inl 4 [Some 1; Some 2; Some 3]) 0 (OwnElement 2) = Done (inl 4 [Some 2; Some 1; Some 2; Some 3], 0, false) /\
  fv_insert false 4 (inl 4 [Some 1; Some 2; Some 3]) 2 (OwnElement 0) = Done (inl 4 [Some 1; Some 2; Some 1; Some 3], 2, false) /\
  fv_push_back true 2 (inl 2 [Some 1; Some 2]) (OwnElement 0) = Fault FUB.
Proof. repeat split; reflexivity. Qed.

(** *** C37 *)
(** The flag tells whether the argument has been moved from. *)
Theorem C37_inline_moves_partial : forall (A : Type) has cap (v : fvec A) q a, state has cap v q -> IsUsingFallback has v = false -> length q < cap ->
  exists v', fv_push_back has cap v (ByMove a) = Done (v', true) /\ state has cap v' (q ++ [Some a]).
Proof.
  intros A has cap v q a [(-> & HL)|(Hh & ->)] F H; [|rewrite fb_spl in F by assumption; discriminate].
  rewrite push_inl by (trivial; exact I). eexists. split; [reflexivity|]. left. split; [reflexivity|]. rewrite app_length. simpl. lia.
Qed.
Print Assumptions C37_inline_moves_partial.
(** From the spill on, push_back(T&&) copies its argument. *)
Theorem C37_spilled_copies_refuted : forall (A : Type) cap (v : fvec A) q a, state true cap v q -> (IsUsingFallback true v = true \/ length q = cap) ->
  exists v', fv_push_back true cap v (ByMove a) = Done (v', false) /\ state true cap v' (q ++ [Some a]).
Proof.
  intros A cap v q a [(-> & HL)|(Hh & ->)] F.
  - destruct F as [F|F]; [rewrite fb_inl in F; discriminate|]. rewrite push_full by (trivial; exact I). eexists. split; [reflexivity|]. right. auto.
  - rewrite push_spl by (trivial; exact I). eexists. split; [reflexivity|]. right. auto.
Qed.
Print Assumptions C37_spilled_copies_refuted.
(** emplace_back and insert always move. *)
Theorem C37_emplace_moves : forall (A : Type) has cap (v : fvec A) q a i, state has cap v q -> i <= length q -> (has = true \/ length q < cap) ->
  (exists v', fv_emplace_back has cap v (ByMove a) = Done (v', true) /\ state has cap v' (q ++ [Some a])) /\
  (exists v', fv_insert has cap v i (ByMove a) = Done (v', i, true) /\ state has cap v' (firstn i q ++ Some a :: skipn i q)).
Proof.
  intros A has cap v q a i [(-> & HL)|(Hh & ->)] Hi F.
  - assert (L : length (firstn i q ++ Some a :: skipn i q) = length q + 1) by (rewrite app_length; cbn [length]; rewrite firstn_length, skipn_length; lia).
    destruct (Nat.lt_ge_cases (length q) cap) as [H|H].
    + unfold fv_insert. rewrite emplace_back_inl, emplace_inl by (trivial; exact I). split; eexists; (split; [reflexivity|]); left; (split; [reflexivity|]); cbn [arg_value]; rewrite ?L, ?app_length; simpl; lia.
    + assert (Hh : has = true) by (destruct F; [assumption | lia]). unfold fv_insert. rewrite emplace_back_full, emplace_full by (trivial; try exact I; lia).
      split; eexists; (split; [reflexivity|]); right; auto.
  - unfold fv_insert. rewrite emplace_back_spl, emplace_spl by (trivial; exact I). split; eexists; (split; [reflexivity|]); right; auto.
Qed.
Print Assumptions C37_emplace_moves.
Example C37_nonvacuous : fv_push_back true 1 (inl 1 [Some 1]) (ByMove 2) = Done (spl 1 [Some 1; Some 2], false) /\ fv_push_back true 2 (inl 2 [Some 1]) (ByMove 2) = Done (inl 2 [Some 1; Some 2], true).
Proof. split; reflexivity. Qed.
