(** Properties C38, C39 and C76: StackVector and StackArray. *)
From Verif Require Import CellModel CellProofs VectorSpec VectorModel VectorProofs VectorHistory VectorCopy StackModel StackProofs.

(** What a user sees of a StackVector whose contents are the sequence [l], living in block [b] of the heap [h]; [h0] is the heap before
    anything was constructed in that block: destroying the vector gives it back. *)
Definition shows_sv {A} (dflt : A) (h0 h : list (list (cell A))) (v : svec) (l : list A) : Prop :=
  v_size v = length l /\
  (forall i, sv_at h v i = match nth_error l i with Some a => Done (Some a) | None => Fault FAssert end) /\
  sv_front h v = (match l with [] => Fault FAssert | a :: _ => Done (Some a) end) /\
  sv_back h v = (match rev l with [] => Fault FAssert | a :: _ => Done (Some a) end) /\
  sv_destroy dflt h v = Done h0.

Lemma read_seq {A} (h : list (list (cell A))) b (l : list A) R i a : nth_error h b = Some (map Obj (map Some l) ++ R) -> nth_error l i = Some a ->
  read_block h (Some b) i = Done (Some a).
Proof.
  intros E N. assert (i < length l) by (apply nth_error_Some; congruence). unfold read_block. rewrite (vget_some _ _ _ E). cbn [bind].
  unfold read. rewrite nth_error_app1 by (rewrite !map_length; lia). rewrite map_map, (map_nth_error _ _ _ N). reflexivity.
Qed.

Lemma holds_shows {A} (dflt : A) h0 h b c v l : nth_error h0 b = Some (repeat Raw c) -> (exists m, h = upd h0 b m) -> holds_seq h b c v l -> shows_sv dflt h0 h v l.
Proof.
  intros E0 (m & ->) (-> & HL & E). split; [reflexivity|]. split; [|split; [|split]].
  - intros i. unfold sv_at. cbn [v_size v_ptr]. destruct (nth_error l i) as [a|] eqn:N.
    + assert (i < length l) by (apply nth_error_Some; congruence). replace (i <? length l) with true by lia. cbn [assert bind]. exact (read_seq _ b l _ i a E N).
    + apply nth_error_None in N. now replace (i <? length l) with false by lia.
  - unfold sv_front. cbn [v_size v_ptr]. destruct l as [|a l]; [reflexivity|]. cbn [length Nat.eqb negb assert bind]. exact (read_seq _ b (a :: l) _ 0 a E eq_refl).
  - unfold sv_back. cbn [v_size v_ptr]. destruct (rev l) as [|a r] eqn:ER.
    + apply (f_equal (@rev A)) in ER. rewrite rev_involutive in ER. now subst l.
    + apply (f_equal (@rev A)) in ER. rewrite rev_involutive in ER. simpl in ER. subst l. rewrite app_length in *. cbn [length] in *. replace (length (rev r) + 1 =? 0) with false by lia.
      cbn [negb assert bind]. apply (read_seq _ b (rev r ++ [a]) _ _ a E). rewrite nth_error_mid by lia. reflexivity.
  - rewrite sv_destroy_eq. cbn [v_size v_ptr]. rewrite <- (map_length (@Some A) l). rewrite (destroy_all _ b _ _ E), map_length, upd_upd, <- repeat_app.
    replace (length l + (c - length l)) with c by lia. f_equal. now apply upd_id.
Qed.

(** *** C38 *)
Theorem C38_stack_vector_history : forall (A : Type) (dflt : A) h b c ops l rs,
  nth_error h b = Some (repeat Raw c) -> (forall n, ~ In (Reserve n) ops) -> s_run (Some c) dflt [] ops = Done (l, rs) ->
  exists h' v, sv_run dflt (h, sv_new b c) ops = Done (h', v, rs) /\ shows_sv dflt h h' v l /\ forall b', b' <> b -> nth_error h' b' = nth_error h b'.
Proof.
  intros A dflt h b c ops l rs E HR ER. assert (H : holds_seq h b c (sv_new b c) []).
  { split; [reflexivity|]. split; [simpl; lia|]. rewrite E. cbn [map app length]. now rewrite Nat.sub_0_r. }
  pose proof (sv_history dflt ops h b c _ [] H HR) as S. rewrite ER in S. destruct S as (v & m & ES & H').
  exists (upd h b m), v. split; [exact ES|]. split; [apply (holds_shows dflt h _ b c); eauto|].
  intros b' Hb. rewrite nth_error_upd. now replace (b' =? b) with false by lia.
Qed.
Print Assumptions C38_stack_vector_history.
(** Any other history (capacity exceeded, position out of range) ends in an assertion. *)
Theorem C38_stack_vector_refuses : forall (A : Type) (dflt : A) h b c ops f,
  nth_error h b = Some (repeat Raw c) -> (forall n, ~ In (Reserve n) ops) -> (forall i, ~ In (EraseRange i i) ops) -> s_run (Some c) dflt [] ops = Fault f ->
  sv_run dflt (h, sv_new b c) ops = Fault FAssert.
Proof.
  intros A dflt h b c ops f E HR HE ER. assert (H : holds_seq h b c (sv_new b c) []).
  { split; [reflexivity|]. split; [simpl; lia|]. rewrite E. cbn [map app length]. now rewrite Nat.sub_0_r. }
  pose proof (sv_history dflt ops h b c _ [] H HR) as S. rewrite ER in S. apply S. apply Forall_forall. intros o Ho i ->. exact (HE i Ho).
Qed.
Print Assumptions C38_stack_vector_refuses.
(** The default-constructed vector has no memory: growing it always asserts, destroying it does nothing. *)
Theorem C38_null_vector : forall (A : Type) (dflt a : A) h i n, sv_push h sv_null a = Fault FAssert /\ sv_emplace h sv_null i a = Fault FAssert /\
  sv_resize h sv_null (S n) a = Fault FAssert /\ sv_destroy dflt h sv_null = Done h.
Proof. intros. repeat split; reflexivity. Qed.
Print Assumptions C38_null_vector.
Definition stack_ops : list (vop nat) :=
  [PushCopy 1; PushMove 2; Insert 0 9; EmplaceBack 5; InsertMove 2 7; Erase 1; SetAt 0 4; EraseRange 1 3; ResizeWith 4 8; PopBack; Resize 5].
Example C38_history_case : s_run (Some 5) 0 [] stack_ops = Done ([4; 5; 8; 0; 0], [None; None; Some 0; None; Some 2; Some 1; None; Some 1; None; None; None]).
Proof. reflexivity. Qed.
Example C38_history_run : exists h v r, sv_run 0 ([[Raw]; repeat Raw 5], sv_new 1 5) stack_ops = Done (h, v, r) /\ shows_sv 0 [[Raw]; repeat Raw 5] h v [4; 5; 8; 0; 0] /\ nth_error h 0 = Some [Raw].
Proof.
  assert (R : forall n, ~ In (Reserve n) stack_ops) by (intros n H; cbn in H; repeat (destruct H as [H|H]; [discriminate|]); destruct H).
  destruct (C38_stack_vector_history nat 0 [[Raw]; repeat Raw 5] 1 5 stack_ops _ _ eq_refl R C38_history_case) as (h & v & E & S & O).
  exists h, v. eexists. split; [exact E|]. split; [exact S|]. now rewrite O.
Qed.
Example C38_refuses_case : sv_run 0 ([repeat Raw 2], sv_new 0 2) [PushCopy 1; PushCopy 2; Insert 1 3] = Fault FAssert.
Proof. reflexivity. Qed.

(** *** C36 *)
(** push_back(v[k]) and insert(i, v[k]) on a StackVector with room: right for push_back and for positions after the element. *)
Lemma nth_some {A} (d : A) l k : k < length l -> nth k (map Some l) None = Some (nth k l d).
Proof. intros H. rewrite nth_indep with (d' := Some d) by (now rewrite map_length). apply map_nth. Qed.
Lemma holds_upd {A} h b c (l : list A) : b < length h -> length l <= c -> holds_seq (upd h b (m_data (inl c (map Some l)))) b c (SV c (length l) (Some b)) l.
Proof. intros HB HL. split; [reflexivity|]. split; [exact HL|]. rewrite nth_upd_block by assumption. cbn [inl m_data]. now rewrite map_length. Qed.
Theorem C36_stack_own_push : forall (A : Type) (dflt : A) h b c v l k, holds_seq h b c v l -> k < length l -> length l < c ->
  exists h' v', sv_push_own h v k = Done (h', v') /\ holds_seq h' b c v' (l ++ [nth k l dflt]).
Proof.
  intros A dflt h b c v l k (-> & HL & E) Hk HC. assert (HB : b < length h) by (apply nth_error_Some; congruence).
  rewrite (push_own_sim h c _ b _ k E), as_inl, own_push_inl by (rewrite map_length; assumption). cbn [bind]. do 2 eexists. split; [reflexivity|].
  rewrite (nth_some dflt) by assumption. replace (map Some l ++ [Some (nth k l dflt)]) with (map Some (l ++ [nth k l dflt])) by (now rewrite map_app).
  cbn [inl count m_size]. rewrite map_length. apply holds_upd; [assumption|]. rewrite app_length. simpl. lia.
Qed.
Print Assumptions C36_stack_own_push.
Theorem C36_stack_own_insert_partial : forall (A : Type) (dflt : A) h b c v l i k, holds_seq h b c v l -> k < length l -> i <= length l -> length l < c -> k < i \/ i = length l ->
  exists h' v', sv_emplace_own h v i k = Done (h', v', i) /\ holds_seq h' b c v' (firstn i l ++ nth k l dflt :: skipn i l).
Proof.
  intros A dflt h b c v l i k (-> & HL & E) Hk Hi HC Hik. assert (HB : b < length h) by (apply nth_error_Some; congruence).
  rewrite (emplace_own_sim h c _ b _ i k E HC), as_inl, own_insert_inl by (rewrite map_length; assumption). rewrite map_length.
  replace ((k <? i) || (i =? length l)) with true by lia. cbn [bind]. do 2 eexists. split; [reflexivity|].
  rewrite (nth_some dflt) by assumption. rewrite firstn_map, skipn_map.
  replace (map Some (firstn i l) ++ Some (nth k l dflt) :: map Some (skipn i l)) with (map Some (firstn i l ++ nth k l dflt :: skipn i l)) by (now rewrite map_app).
  cbn [inl count m_size]. rewrite map_length. apply holds_upd; [assumption|]. rewrite app_length. cbn [length]. rewrite firstn_length, skipn_length. lia.
Qed.
Print Assumptions C36_stack_own_insert_partial.
(** Before the element: undefined at its own position, the element before it otherwise. *)
Theorem C36_stack_own_insert_refuted : forall (A : Type) (dflt : A) h b c v l i k, holds_seq h b c v l -> length l < c -> i <= k < length l ->
  if k =? i then sv_emplace_own h v i k = Fault FUB
  else exists h' v', sv_emplace_own h v i k = Done (h', v', i) /\ holds_seq h' b c v' (firstn i l ++ nth (k - 1) l dflt :: skipn i l).
Proof.
  intros A dflt h b c v l i k (-> & HL & E) HC Hik. assert (HB : b < length h) by (apply nth_error_Some; congruence).
  rewrite (emplace_own_sim h c _ b _ i k E HC), as_inl, own_insert_inl by (rewrite map_length; lia). rewrite map_length.
  replace ((k <? i) || (i =? length l)) with false by lia. destruct (k =? i); cbn [bind]; [reflexivity|]. do 2 eexists. split; [reflexivity|].
  rewrite (nth_some dflt) by lia. rewrite firstn_map, skipn_map.
  replace (map Some (firstn i l) ++ Some (nth (k - 1) l dflt) :: map Some (skipn i l)) with (map Some (firstn i l ++ nth (k - 1) l dflt :: skipn i l)) by (now rewrite map_app).
  cbn [inl count m_size]. rewrite map_length. apply holds_upd; [assumption|]. rewrite app_length. cbn [length]. rewrite firstn_length, skipn_length. lia.
Qed.
Print Assumptions C36_stack_own_insert_refuted.
Example C36_stack_nonvacuous : let h := [[Obj (Some 1); Obj (Some 2); Obj (Some 3); Raw; Raw]] in let v := SV 5 3 (Some 0) in
  holds_seq h 0 5 v [1; 2; 3] /\ sv_emplace_own h v 0 1 = Done ([[Obj (Some 1); Obj (Some 1); Obj (Some 2); Obj (Some 3); Raw]], SV 5 4 (Some 0), 0) /\
  sv_emplace_own h v 1 1 = Fault FUB /\ sv_emplace_own h v 2 0 = Done ([[Obj (Some 1); Obj (Some 2); Obj (Some 1); Obj (Some 3); Raw]], SV 5 4 (Some 0), 2).
Proof. cbn zeta. repeat split; simpl; lia. Qed.

(** *** C39 *)
(** With at most one element, the vector can be moved and both objects destroyed. *)
Theorem C39_moved_vector_partial : forall (A : Type) (dflt : A) h b c v l, nth_error h b = Some (repeat Raw c) -> length l <= 1 ->
  forall m, holds_seq (upd h b m) b c v l -> let (w, v') := sv_move v in
  sv_destroy dflt (upd h b m) v' = Done (upd h b m) /\ shows_sv dflt h (upd h b m) w l.
Proof.
  intros A dflt h b c v l E HL m H. unfold sv_move. split.
  - rewrite sv_destroy_eq. cbn [v_size v_ptr]. rewrite destroy_null. destruct H as (-> & _). cbn [v_size]. now replace (length l <=? 1) with true by lia.
  - apply (holds_shows dflt h _ b c); eauto.
Qed.
Print Assumptions C39_moved_vector_partial.
(** With two or more, destroying the moved-from vector destroys an object at an address computed from null. *)
Theorem C39_moved_vector_refuted : forall (A : Type) (dflt : A) h v, 2 <= v_size v -> sv_destroy dflt h (snd (sv_move v)) = Fault FUB.
Proof. intros A dflt h v H. rewrite sv_destroy_eq. cbn [sv_move snd v_size v_ptr]. rewrite destroy_null. now replace (v_size v <=? 1) with false by lia. Qed.
Print Assumptions C39_moved_vector_refuted.
(** Move assignment exchanges the blocks but not the sizes: destroying the source afterwards is right exactly when both vectors had the same size. *)
Theorem C39_move_assigned_vector_partial : forall (A : Type) (dflt : A) h b1 b2 c1 c2 v1 v2 l1 l2,
  holds_seq h b1 c1 v1 l1 -> holds_seq h b2 c2 v2 l2 -> let (d, s) := sv_move_assign v1 v2 in
  (length l1 = length l2 -> sv_destroy dflt h s = Done (upd h b1 (repeat Raw c1))) /\
  (length l1 < length l2 -> sv_destroy dflt h s = Fault FUB) /\
  (length l2 < length l1 -> exists h', sv_destroy dflt h s = Done h' /\
     nth_error h' b1 = Some (repeat Raw (length l2) ++ map Obj (map Some (skipn (length l2) l1)) ++ repeat Raw (c1 - length l1))).
Proof.
  intros A dflt h b1 b2 c1 c2 v1 v2 l1 l2 (-> & H1 & E1) (-> & H2 & E2). unfold sv_move_assign. cbn [v_size v_ptr v_capacity].
  rewrite sv_destroy_eq. cbn [v_size v_ptr]. split; [|split].
  - intros HL. rewrite <- HL. rewrite <- (map_length (@Some A) l1). rewrite (destroy_all _ b1 _ _ E1), map_length, <- repeat_app.
    now replace (length l1 + (c1 - length l1)) with c1 by lia.
  - intros HL. apply (destroy_too_many h b1 (map Some l1) (repeat Raw (c1 - length l1))); [exact E1 | | now rewrite map_length].
    destruct (c1 - length l1); [left | right; eexists]; reflexivity.
  - intros HL. assert (E : nth_error h b1 = Some (map Obj (map Some (firstn (length l2) l1)) ++ map Obj (map Some (skipn (length l2) l1)) ++ repeat Raw (c1 - length l1)))
      by (rewrite app_assoc, <- !map_app, firstn_skipn; exact E1).
    pose proof (destroy_all h b1 _ _ E) as D. rewrite map_length, firstn_length_le in D by lia. eexists. split; [exact D|]. apply nth_upd_block. apply nth_error_Some. congruence.
Qed.
Print Assumptions C39_move_assigned_vector_partial.
(** The same for StackArray. *)
Theorem C39_moved_array_partial : forall (A : Type) (h : list (list (cell A))) b n, n <= 1 -> sa_destroy h (snd (sa_move (SA n (Some b)))) = Done h.
Proof. intros A h b n H. unfold sa_destroy. cbn [sa_move snd a_size a_ptr]. rewrite destroy_null. now replace (n <=? 1) with true by lia. Qed.
Print Assumptions C39_moved_array_partial.
Theorem C39_moved_array_refuted : forall (A : Type) (h : list (list (cell A))) a, 2 <= a_size a -> sa_destroy h (snd (sa_move a)) = Fault FUB.
Proof. intros A h a H. unfold sa_destroy. cbn [sa_move snd a_size a_ptr]. rewrite destroy_null. now replace (a_size a <=? 1) with false by lia. Qed.
Print Assumptions C39_moved_array_refuted.
Theorem C39_move_assigned_array_partial : forall (A : Type) h b1 b2 (l1 l2 : list A) c1,
  length l1 <= c1 -> nth_error h b1 = Some (map Obj (map Some l1) ++ repeat Raw (c1 - length l1)) -> let (d, s) := sa_move_assign (SA (length l1) (Some b1)) (SA (length l2) (Some b2)) in
  d = SA (length l2) (Some b2) /\
  (length l1 = length l2 -> sa_destroy h s = Done (upd h b1 (repeat Raw c1))) /\
  (length l1 < length l2 -> sa_destroy h s = Fault FUB) /\
  (length l2 < length l1 -> exists h', sa_destroy h s = Done h' /\
     nth_error h' b1 = Some (repeat Raw (length l2) ++ map Obj (map Some (skipn (length l2) l1)) ++ repeat Raw (c1 - length l1))).
Proof.
  intros A h b1 b2 l1 l2 c1 H1 E1. cbn [sa_move_assign a_size a_ptr]. unfold sa_destroy. cbn [a_size a_ptr]. split; [reflexivity|]. split; [|split].
  - intros HL. rewrite <- HL. rewrite <- (map_length (@Some A) l1). rewrite (destroy_all _ b1 _ _ E1), map_length, <- repeat_app.
    now replace (length l1 + (c1 - length l1)) with c1 by lia.
  - intros HL. apply (destroy_too_many h b1 (map Some l1) (repeat Raw (c1 - length l1))); [exact E1 | | now rewrite map_length].
    destruct (c1 - length l1); [left | right; eexists]; reflexivity.
  - intros HL. assert (E : nth_error h b1 = Some (map Obj (map Some (firstn (length l2) l1)) ++ map Obj (map Some (skipn (length l2) l1)) ++ repeat Raw (c1 - length l1)))
      by (rewrite app_assoc, <- !map_app, firstn_skipn; exact E1).
    pose proof (destroy_all h b1 _ _ E) as D. rewrite map_length, firstn_length_le in D by lia. eexists. split; [exact D|]. apply nth_upd_block. apply nth_error_Some. congruence.
Qed.
Print Assumptions C39_move_assigned_array_partial.
Example C39_case : exists h v, sv_run 0 ([repeat Raw 3], sv_new 0 3) [PushCopy 1; PushCopy 2] = Done (h, v, [None; None]) /\ sv_destroy 0 h (snd (sv_move v)) = Fault FUB.
Proof. do 2 eexists. split; vm_compute; reflexivity. Qed.
Example C39_one_case : holds_seq [[Obj (Some 7); Raw]] 0 2 (SV 2 1 (Some 0)) [7].
Proof. split; [reflexivity|]. split; [simpl; lia | reflexivity]. Qed.

(** *** C76 *)
Lemma map_same {A B} (f : A -> B) x n : map f (repeat x n) = repeat (f x) n.
Proof. induction n as [|n IH]; [reflexivity|]. cbn [repeat map]. now rewrite IH. Qed.
(** Constructing a StackArray constructs its n elements and nothing else; reading is checked; destroying it restores the memory. *)
Theorem C76_array_lifetime : forall (A : Type) (dflt : A) h b n R, nth_error h b = Some (repeat Raw n ++ R) ->
  exists h' a, sa_new dflt h b n = Done (h', a) /\ a_size a = n /\ sa_destroy h' a = Done h /\
  (forall i, sa_at h' a i = if i <? n then Done (Some dflt) else Fault FAssert) /\
  sa_back h' a = (if n =? 0 then Fault FAssert else Done (Some dflt)) /\
  forall b', b' <> b -> nth_error h' b' = nth_error h b'.
Proof.
  intros A dflt h b n R E. assert (HB : b < length h) by (apply nth_error_Some; congruence).
  assert (E' : nth_error (upd h b (map Obj (repeat (Some dflt) n) ++ R)) b = Some (map Obj (map Some (repeat dflt n)) ++ R)) by (rewrite nth_upd_block by assumption; now rewrite !map_same).
  assert (RD : forall i, i < n -> read_block (upd h b (map Obj (repeat (Some dflt) n) ++ R)) (Some b) i = Done (Some dflt)).
  { intros i Hi. apply (read_seq _ b (repeat dflt n) R); [exact E'|]. rewrite (nth_error_nth' _ dflt) by (now rewrite repeat_length). now rewrite nth_repeat. }
  exists (upd h b (map Obj (repeat (Some dflt) n) ++ R)), (SA n (Some b)). split; [exact (sa_new_spec dflt h b n R E)|]. split; [reflexivity|]. split; [|split; [|split]].
  - unfold sa_destroy. cbn [a_size a_ptr]. pose proof (destroy_all _ b _ _ E') as D. rewrite map_length, repeat_length in D. rewrite D, upd_upd. f_equal. apply upd_id. exact E.
  - intros i. unfold sa_at. cbn [a_size a_ptr]. destruct (Nat.ltb_spec i n); cbn [assert bind]; [now apply RD | reflexivity].
  - unfold sa_back. cbn [a_size a_ptr]. destruct (Nat.eqb_spec n 0); cbn [negb assert bind]; [reflexivity | apply RD; lia].
  - intros b' Hb. rewrite nth_error_upd. now replace (b' =? b) with false by lia.
Qed.
Print Assumptions C76_array_lifetime.
(** fill and element assignment. *)
Theorem C76_array_write : forall (A : Type) h b (l : list A) R x i, nth_error h b = Some (map Obj (map Some l) ++ R) ->
  sa_fill h (SA (length l) (Some b)) x = Done (upd h b (map Obj (map Some (repeat x (length l))) ++ R)) /\
  sa_set h (SA (length l) (Some b)) i x = if i <? length l then Done (upd h b (map Obj (map Some (upd l i x)) ++ R)) else Fault FAssert.
Proof.
  intros A h b l R x i E. split.
  - unfold sa_fill. cbn [a_size a_ptr]. rewrite (foreach_block (fun m i => assign m i (Some x)) b _ h _ E).
    assert (G : forall k, k <= length l -> foreach (range 0 k) (fun m i => assign m i (Some x)) (map Obj (map Some l) ++ R) = Done (map Obj (map Some (repeat x k ++ skipn k l)) ++ R)).
    { intros k. induction k as [|k IH]; intros Hk; [reflexivity|]. unfold range in *. rewrite Nat.sub_0_r in *. rewrite seq_S, foreach_app, IH by lia. cbn [bind foreach Nat.add].
      rewrite (cut1 (skipn k l) 0 x) by (rewrite skipn_length; lia). cbn [firstn app]. rewrite map_app. cbn [map]. rewrite map_app, <- app_assoc. cbn [map app].
      rewrite assign_mid by (rewrite !map_length, repeat_length; reflexivity). cbn [bind]. f_equal.
      replace (skipn (0 + 1) (skipn k l)) with (skipn (S k) l) by (rewrite <- (firstn_skipn k l) at 1; rewrite skipn_app, firstn_length_le, skipn_all2 by (try rewrite firstn_length_le; lia); cbn [app]; f_equal; lia).
      replace (repeat x (S k)) with (repeat x k ++ [x]) by (symmetry; apply (repeat_cons k x)). rewrite <- !app_assoc, !map_app, <- !app_assoc. reflexivity. }
    rewrite (G (length l)) by lia. cbn [bind]. now rewrite skipn_all, app_nil_r.
  - unfold sa_set. cbn [a_size a_ptr]. destruct (Nat.ltb_spec i (length l)) as [Hi|]; cbn [assert bind]; [|reflexivity]. rewrite (on_block_some h b _ _ E).
    rewrite (cut1 l i x) at 1 by assumption. rewrite !map_app, <- app_assoc. cbn [map app]. rewrite assign_mid by (rewrite !map_length, firstn_length_le; lia). cbn [bind].
    f_equal. f_equal. replace (upd l i x) with (firstn i l ++ x :: skipn (i + 1) l); [now rewrite !map_app, <- app_assoc|].
    rewrite (cut1 l i x) at 3 by assumption. symmetry. apply upd_mid. rewrite firstn_length_le; lia.
Qed.
Print Assumptions C76_array_write.
(** front() of an empty array is not checked; the destructor of a NoInit array whose elements were not all constructed is undefined. *)
Theorem C76_front_refuted : forall (A : Type) (h : list (list (cell A))) b, nth_error h b = Some [] -> sa_front h (SA 0 (Some b)) = Fault FUB /\ sa_front h (SA 0 None) = Fault FUB.
Proof. intros A h b E. unfold sa_front, read_block. cbn [a_ptr]. rewrite (vget_some _ _ _ E). split; reflexivity. Qed.
Print Assumptions C76_front_refuted.
Theorem C76_noinit : forall (A : Type) h b n (q : list (option A)), nth_error h b = Some (map Obj q ++ repeat Raw (n - length q)) -> length q <= n ->
  sa_destroy h (sa_noinit b n) = if length q =? n then Done (upd h b (repeat Raw n)) else Fault FUB.
Proof.
  intros A h b n q E H. unfold sa_destroy, sa_noinit. cbn [a_size a_ptr]. destruct (Nat.eqb_spec (length q) n) as [<-|].
  - rewrite (destroy_all h b _ _ E), Nat.sub_diag. cbn [repeat]. now rewrite app_nil_r.
  - apply (destroy_too_many h b q (repeat Raw (n - length q))); [exact E | | lia]. destruct (n - length q); [left | right; eexists]; reflexivity.
Qed.
Print Assumptions C76_noinit.
Example C76_case : exists h a, sa_new 3 [repeat Raw 4] 0 4 = Done (h, a) /\ sa_destroy h a = Done [repeat Raw 4] /\ sa_fill h a 8 = Done [map Obj (map Some [8; 8; 8; 8])].
Proof. do 2 eexists. vm_compute. repeat split. Qed.
