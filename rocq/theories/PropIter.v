(** Property C111: iterating over FixedVector, HybridVector, StackVector and StackArray. *)
From Verif Require Import CellModel CellProofs VectorSpec VectorModel VectorProofs VectorHistory VectorCopy StackModel StackProofs IterModel IterProofs PropVector PropStack.

Definition bound (has : bool) (cap : nat) : option nat := if has then None else Some cap.

(** After any accepted history: a forward loop reads the contents in order, a reverse loop in reverse order, and each ends. *)
Theorem C111_vector_read : forall (A : Type) has cap (dflt : A) ops l rs, s_run (bound has cap) dflt [] ops = Done (l, rs) ->
  exists v, fv_run has cap dflt (fv_new cap) ops = Done (v, rs) /\
  forall fuel, length l < fuel -> fv_iterate has v fuel = Done (map Some l) /\ fv_iterate_back has v fuel = Done (map Some (rev l)).
Proof.
  intros A has cap dflt ops l rs E. destruct (run_done has cap dflt ops (fv_new cap) [] l rs (rep_new has cap) E) as (v & E' & R).
  exists v. split; [exact E'|]. intros fuel HF. unfold fv_iterate, fv_iterate_back. rewrite (rep_size has cap v l R). split.
  - now rewrite (walk_spec _ (rep has cap) (fun s l i a => rep_read has cap s l i a) v l R (length l) 0 fuel) by lia.
  - rewrite (walk_back_spec _ (rep has cap) (fun s l i a => rep_read has cap s l i a) v l R (length l) fuel) by lia. now rewrite firstn_all.
Qed.
Print Assumptions C111_vector_read.
(** Assigning through the iterators changes every element and nothing else. *)
Theorem C111_vector_write : forall (A : Type) has cap (dflt : A) ops l rs (f : A -> A), s_run (bound has cap) dflt [] ops = Done (l, rs) ->
  exists v, fv_run has cap dflt (fv_new cap) ops = Done (v, rs) /\
  forall fuel, length l < fuel ->
    (exists v', fv_transform has f v fuel = Done v' /\ shows has cap v' (map f l)) /\
    (exists v', fv_transform_back has f v fuel = Done v' /\ shows has cap v' (map f l)).
Proof.
  intros A has cap dflt ops l rs f E. destruct (run_done has cap dflt ops (fv_new cap) [] l rs (rep_new has cap) E) as (v & E' & R).
  exists v. split; [exact E'|]. intros fuel HF. unfold fv_transform, fv_transform_back. rewrite (rep_size has cap v l R).
  pose proof (fun s l i a => rep_read (A := A) has cap s l i a) as L. pose proof (fun s l i a => rep_store (A := A) has cap s l i a) as W. split.
  - destruct (write_spec _ _ (rep has cap) L W f l [] v fuel R HF) as (v' & EW & R'). exists v'. split; [exact EW | now apply rep_shows].
  - destruct (write_back_spec _ _ (rep has cap) L W f l [] v fuel) as (v' & EW & R'); [now rewrite app_nil_r | exact HF|]. exists v'. split; [exact EW|].
    rewrite app_nil_r in R'. now apply rep_shows.
Qed.
Print Assumptions C111_vector_write.

(** StackVector and StackArray: [n] elements at the start of the block. *)
Lemma block_read_all {A} h b (l : list A) T fuel : nth_error h b = Some (map Obj (map Some l) ++ T) -> length l < fuel ->
  block_iterate h (Some b) (length l) fuel = Done (map Some l) /\ block_iterate_back h (Some b) (length l) fuel = Done (map Some (rev l)).
Proof.
  intros E HF. assert (B : block_holds b h T h l) by (split; [apply nth_error_Some; congruence | symmetry; now apply upd_id]).
  pose proof (fun s l i a => block_read (A := A) b h T s l i a) as L. unfold block_iterate, block_iterate_back. split.
  - now rewrite (walk_spec _ _ L h l B (length l) 0 fuel) by lia.
  - rewrite (walk_back_spec _ _ L h l B (length l) fuel) by lia. now rewrite firstn_all.
Qed.
Lemma block_write_all {A} h b (l : list A) T (f : A -> A) fuel : nth_error h b = Some (map Obj (map Some l) ++ T) -> length l < fuel ->
  block_transform f h (Some b) (length l) fuel = Done (upd h b (map Obj (map Some (map f l)) ++ T)) /\
  block_transform_back f h (Some b) (length l) fuel = Done (upd h b (map Obj (map Some (map f l)) ++ T)).
Proof.
  intros E HF. assert (B : block_holds b h T h l) by (split; [apply nth_error_Some; congruence | symmetry; now apply upd_id]).
  pose proof (fun s l i a => block_read (A := A) b h T s l i a) as L. pose proof (fun s l i a => block_store (A := A) b h T s l i a) as W. unfold block_transform, block_transform_back. split.
  - destruct (write_spec _ (fun h i o => on_block h (Some b) (fun m => assign m i o)) _ L W f l [] h fuel B HF) as (h' & EW & (_ & ->)). exact EW.
  - destruct (write_back_spec _ (fun h i o => on_block h (Some b) (fun m => assign m i o)) _ L W f l [] h fuel) as (h' & EW & (_ & ->)); [now rewrite app_nil_r | exact HF|]. rewrite app_nil_r in EW. exact EW.
Qed.
Theorem C111_stack_vector_read : forall (A : Type) (dflt : A) h b c ops l rs,
  nth_error h b = Some (repeat Raw c) -> (forall n, ~ In (Reserve n) ops) -> s_run (Some c) dflt [] ops = Done (l, rs) ->
  exists h' v, sv_run dflt (h, sv_new b c) ops = Done (h', v, rs) /\
  forall fuel, length l < fuel ->
    block_iterate h' (v_ptr v) (v_size v) fuel = Done (map Some l) /\ block_iterate_back h' (v_ptr v) (v_size v) fuel = Done (map Some (rev l)).
Proof.
  intros A dflt h b c ops l rs E HR ER. assert (H : holds_seq h b c (sv_new b c) []).
  { split; [reflexivity|]. split; [simpl; lia|]. rewrite E. cbn [map app length]. now rewrite Nat.sub_0_r. }
  pose proof (sv_history dflt ops h b c _ [] H HR) as S. rewrite ER in S. destruct S as (v & m & ES & -> & HL & E').
  exists (upd h b m), (SV c (length l) (Some b)). split; [exact ES|]. intros fuel HF. exact (block_read_all _ b l _ fuel E' HF).
Qed.
Print Assumptions C111_stack_vector_read.
Theorem C111_stack_vector_write : forall (A : Type) (dflt : A) h b c ops l rs (f : A -> A),
  nth_error h b = Some (repeat Raw c) -> (forall n, ~ In (Reserve n) ops) -> s_run (Some c) dflt [] ops = Done (l, rs) ->
  exists h' v, sv_run dflt (h, sv_new b c) ops = Done (h', v, rs) /\
  forall fuel, length l < fuel -> exists h'', 
    block_transform f h' (v_ptr v) (v_size v) fuel = Done h'' /\ block_transform_back f h' (v_ptr v) (v_size v) fuel = Done h'' /\
    shows_sv dflt h h'' v (map f l) /\ forall b', b' <> b -> nth_error h'' b' = nth_error h b'.
Proof.
  intros A dflt h b c ops l rs f E HR ER. assert (H : holds_seq h b c (sv_new b c) []).
  { split; [reflexivity|]. split; [simpl; lia|]. rewrite E. cbn [map app length]. now rewrite Nat.sub_0_r. }
  pose proof (sv_history dflt ops h b c _ [] H HR) as S. rewrite ER in S. destruct S as (v & m & ES & -> & HL & E').
  exists (upd h b m), (SV c (length l) (Some b)). split; [exact ES|]. intros fuel HF. destruct (block_write_all _ b l _ f fuel E' HF) as (W1 & W2).
  eexists. split; [exact W1|]. split; [exact W2|]. rewrite upd_upd. assert (HB : b < length h) by (apply nth_error_Some; congruence). split.
  - apply (holds_shows dflt h _ b c); [exact E | eauto|]. split; [now rewrite map_length|]. split; [now rewrite map_length|]. rewrite map_length. now apply nth_upd_block.
  - intros b' Hb. rewrite nth_error_upd. now replace (b' =? b) with false by lia.
Qed.
Print Assumptions C111_stack_vector_write.
Theorem C111_array : forall (A : Type) h b (l : list A) T (f : A -> A) fuel, nth_error h b = Some (map Obj (map Some l) ++ T) -> length l < fuel ->
  let a := SA (length l) (Some b) in
  block_iterate h (a_ptr a) (a_size a) fuel = Done (map Some l) /\ block_iterate_back h (a_ptr a) (a_size a) fuel = Done (map Some (rev l)) /\
  block_transform f h (a_ptr a) (a_size a) fuel = Done (upd h b (map Obj (map Some (map f l)) ++ T)) /\
  block_transform_back f h (a_ptr a) (a_size a) fuel = Done (upd h b (map Obj (map Some (map f l)) ++ T)).
Proof.
  intros A h b l T f fuel E HF a. destruct (block_read_all h b l T fuel E HF) as (R1 & R2). destruct (block_write_all h b l T f fuel E HF) as (W1 & W2). auto.
Qed.
Print Assumptions C111_array.
(** A default constructed StackVector is empty: its loops read nothing. *)
Theorem C111_null : forall (A : Type) (h : list (list (cell A))) fuel, 0 < fuel ->
  block_iterate h (v_ptr sv_null) (v_size sv_null) fuel = Done [] /\ block_iterate_back h (v_ptr sv_null) (v_size sv_null) fuel = Done [].
Proof. intros A h [|fuel] H; [lia|]. split; reflexivity. Qed.
Print Assumptions C111_null.
Example C111_case : exists v, fv_run true 2 0 (fv_new 2) [PushCopy 1; PushCopy 2; PushCopy 3] = Done (v, [None; None; None]) /\
  fv_iterate true v 4 = Done [Some 1; Some 2; Some 3] /\ fv_iterate_back true v 4 = Done [Some 3; Some 2; Some 1] /\
  exists v', fv_transform true (Nat.mul 2) v 4 = Done v' /\ fv_iterate true v' 4 = Done [Some 2; Some 4; Some 6].
Proof. eexists. split; [vm_compute; reflexivity|]. split; [reflexivity|]. split; [reflexivity|]. eexists. split; reflexivity. Qed.
Example C111_hypothesis : s_run (bound true 2) 0 [] [PushCopy 1; PushCopy 2; PushCopy 3] = Done ([1; 2; 3], [None; None; None]) /\ s_run (Some 5) 0 [] stack_ops = Done ([4; 5; 8; 0; 0], [None; None; Some 0; None; Some 2; Some 1; None; Some 1; None; None; None]).
Proof. split; reflexivity. Qed.
