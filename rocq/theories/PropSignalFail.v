(** C154: a Connect that fails leaves everything as it was. *)
From Verif Require Import Base ThrowModel CellProofs PropThrow SignalFailModel.
From Verif Require SignalModel SignalSpec SignalHistory PropSignal.
Open Scope nat_scope.

(** The slots [l] in order, in a vector of capacity 1. *)
Definition has_slots (x : fsignal) (l : list nat) : Prop := hybrid (f_slots x) (map Some l) /\ length (t_cells (h_inline (f_slots x))) = 1.

Lemma shape x l : has_slots x l -> let k := t_left (h_inline (f_slots x)) in
  (l = [] /\ f_slots x = HS (TS [Raw] 0 k) [] false) \/ (exists a, l = [a] /\ f_slots x = HS (TS [Obj (Some a)] 1 k) [] false) \/ (exists sz, f_slots x = HS (TS [Raw] sz k) (map Some l) true).
Proof.
  destruct x as [[[m sz k] fb u] it fn]. unfold has_slots, hybrid, holds. cbn [f_slots h_inline h_fallback h_used t_cells t_size t_left]. intros (H & HL). destruct u.
  - destruct H as (-> & C). right. right. exists sz. destruct m as [|c [|]]; try discriminate. cbn in C. now rewrite C.
  - destruct H as ((E & n & C) & ->). rewrite map_length in E. rewrite C, app_length, !map_length, repeat_length in HL. destruct l as [|a [|b l]]; cbn [length] in *; [|right|lia].
    + left. split; [reflexivity|]. assert (n = 1) as -> by lia. now rewrite C, E.
    + left. exists a. split; [reflexivity|]. assert (n = 0) as -> by lia. now rewrite C, E.
Qed.
Lemma slots_inside k it fn : has_slots (FSig (HS (TS [Raw] 0 k) [] false) it fn) [].
Proof. split; [|reflexivity]. split; [|reflexivity]. split; [reflexivity|]. now exists 1. Qed.
Lemma slot_inside a k it fn : has_slots (FSig (HS (TS [Obj (Some a)] 1 k) [] false) it fn) [a].
Proof. split; [|reflexivity]. split; [|reflexivity]. split; [reflexivity|]. now exists 0. Qed.
Lemma slots_outside l sz k it fn : has_slots (FSig (HS (TS [Raw] sz k) (map Some l) true) it fn) l.
Proof. split; [|reflexivity]. split; reflexivity. Qed.

(** In every state of the signal, during emissions as well (the iterator is arbitrary), and wherever the memory runs out: either the slot is
    appended, or slots and iterator are as before. *)
Theorem C154_connect : forall id x l, has_slots x l ->
  match f_connect id x with
  | Val _ y => has_slots y (l ++ [id]) /\ f_iterator y = if (N.of_nat (length l) <=? f_iterator x)%N then N.of_nat (length l + 1) else f_iterator x
  | Thrown y => has_slots y l /\ f_iterator y = f_iterator x
  | Bad _ => False
  end.
Proof.
  intros id x l H. pose proof (shape x l H) as HS. cbv zeta in HS. unfold f_connect. destruct x as [h it fn]. cbn [f_slots f_iterator f_function] in *. remember (t_left (h_inline h)) as k eqn:Ek. clear Ek.
  destruct HS as [(-> & ->)|[(a & -> & ->)|(sz & ->)]]; cbn [h_inline t_left]; (destruct k as [|k]; [split; [exact H | reflexivity]|]).
  - cbn. split; [apply slot_inside | reflexivity].
  - destruct k as [|k]; [cbn; split; [apply slot_inside | reflexivity]|]. destruct k as [|k]; cbn.
    + split; [exact (slots_outside [a] 1 0 it false) | reflexivity].
    + split; [exact (slots_outside [a; id] 1 k _ false) | reflexivity].
  - unfold f_emplace_back, with_left, h_push, h_fallback_push. cbn [h_used negb andb h_inline t_left t_cells t_size h_fallback]. destruct k as [|k]; cbn [f_size h_used h_fallback f_iterator].
    + split; [apply slots_outside | reflexivity].
    + assert (E : map Some l ++ [Some id] = map Some (l ++ [id])) by (now rewrite map_app). rewrite E. split; [apply slots_outside|]. unfold f_size. cbn [h_used h_fallback]. now rewrite !map_length, app_length.
Qed.
Print Assumptions C154_connect.
(** A signal on which Connect failed is destroyed as any other. *)
Theorem C154_destroyed : forall id x l y, has_slots x l -> f_connect id x = Thrown y -> h_sound (f_slots y).
Proof. intros id x l y H E. pose proof (C154_connect id x l H) as K. rewrite E in K. exact (hybrid_sound _ _ (proj1 (proj1 K))). Qed.
Print Assumptions C154_destroyed.

(** The function: given by const reference it is never touched; given by rvalue it is kept exactly when the memory for the slot was missing. *)
Theorem C154_function_copied : forall id x l, has_slots x l ->
  match f_connect_copy id x with
  | Val _ y => has_slots y (l ++ [id]) /\ f_function y = f_function x
  | Thrown y => has_slots y l /\ f_iterator y = f_iterator x /\ f_function y = f_function x
  | Bad _ => False
  end.
Proof.
  intros id x l H. unfold f_connect_copy. destruct (t_left (h_inline (f_slots x))) as [|k]; [repeat split; try reflexivity; apply H|].
  assert (H' : has_slots (FSig (with_left (f_slots x) k) (f_iterator x) true) l) by (destruct x as [[[m sz c] fb u] it fn]; exact H).
  pose proof (C154_connect id _ l H') as K. destruct (f_connect id _) as [[] y|y|f]; [|destruct K as (K1 & K2); split; [exact K1|split; [exact K2 | reflexivity]]|exact K].
  split; [exact (proj1 K) | reflexivity].
Qed.
Print Assumptions C154_function_copied.
Theorem C154_function_lost_refuted : forall id x l y, has_slots x l -> f_function x = true -> f_connect id x = Thrown y -> (f_function y = true <-> t_left (h_inline (f_slots x)) = 0).
Proof.
  intros id x l y H F E. unfold f_connect in E. destruct (t_left (h_inline (f_slots x))) as [|k] eqn:K.
  - injection E as <-. now split.
  - destruct (f_emplace_back id _) as [[] h|h|f]; try discriminate. injection E as <-. cbn. now split.
Qed.
Print Assumptions C154_function_lost_refuted.

(** A signal with one slot, no memory for the std::vector; a signal in the middle of an emission with two, no memory to grow. *)
Example C154_example : has_slots (FSig (HS (TS [Obj (Some 4)] 1 1) [] false) 1 true) [4] /\
  f_connect 5 (FSig (HS (TS [Obj (Some 4)] 1 1) [] false) 1 true) = Thrown (FSig (HS (TS [Obj (Some 4)] 1 0) [] false) 1 false) /\
  f_connect 5 (FSig (HS (TS [Obj (Some 4)] 1 0) [] false) 1 true) = Thrown (FSig (HS (TS [Obj (Some 4)] 1 0) [] false) 1 true) /\
  f_connect 5 (FSig (HS (TS [Obj (Some 4)] 1 3) [] false) 0 true) = Val tt (FSig (HS (TS [Raw] 1 0) [Some 4; Some 5] true) 0 false).
Proof. split; [apply slot_inside|]. repeat split; reflexivity. Qed.

(** ** Guards: the old slot is gone although no new one was connected. *)
Import SignalModel SignalSpec SignalHistory PropSignal.
Theorem C154_guard_refuted : forall w id, reached w -> IsConnected w (Some id) = true ->
  exists w' s, guard_connect_failing w (Some id) = Done (w', Some id) /\ IsConnected w' (Some id) = false /\ In id (connected (trace w) s) /\ ~ In id (connected (trace w') s).
Proof.
  intros w id R H. destruct (C50_disconnect w id R) as (w' & E & R' & C & _). destruct (proj1 (C50_is_connected w id R) H) as (s & HI). exists w', s.
  unfold guard_connect_failing. rewrite E. cbn [bind]. split; [reflexivity|]. pose proof (C50_disconnect_ends_only_its_slot w id id w' R E) as D. rewrite Nat.eqb_refl in D. split; [exact D|]. split; [exact HI|].
  intros K. assert (T : IsConnected w' (Some id) = true) by (apply (C50_is_connected w' id R'); eauto). congruence.
Qed.
Print Assumptions C154_guard_refuted.
(** The other slots are untouched, and a Connection that is not a guard is as before. *)
Theorem C154_others : forall w g, reached w -> exists w', guard_connect_failing w g = Done (w', g) /\ reached w' /\ (forall k, g <> Some k -> IsConnected w' (Some k) = IsConnected w (Some k)) /\
  forall c, conn_connect_failing w c = Done (w, c).
Proof.
  intros w [id|] R; [|exists w; repeat split; auto]. destruct (C50_disconnect w id R) as (w' & E & R' & _). exists w'. unfold guard_connect_failing. rewrite E. split; [reflexivity|]. split; [exact R'|]. split; [|reflexivity].
  intros k D. rewrite (C50_disconnect_ends_only_its_slot w id k w' R E). replace (k =? id) with false; [reflexivity|]. symmetry. apply Nat.eqb_neq. congruence.
Qed.
Print Assumptions C154_others.
Example C154_guard_example : exists w w', history (fun _ _ => []) 0 (start 1) [AConnect 0; AConnect 0] = Done w /\ IsConnected w (Some 0) = true /\ guard_connect_failing w (Some 0) = Done (w', Some 0) /\ map (fun k => IsConnected w' (Some k)) [0; 1] = [false; true].
Proof. eexists _, _. split; [vm_compute; reflexivity|]. split; [vm_compute; reflexivity|]. split; vm_compute; reflexivity. Qed.
