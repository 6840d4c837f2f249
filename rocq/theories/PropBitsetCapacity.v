(** C144: the capacity of bitsets, Reserve, and when blocks are moved to other memory. *)
From Verif Require Import Base CInt MathModel BitsetModel BitsetSpec BitsetBits BitsetProofs BitsetHistory BitsetCapacityModel BitsetCapacity.
Open Scope nat_scope.

(** The library takes at least what is asked. *)
Definition takes_enough (grow : nat -> nat -> nat) : Prop := forall k n, n <= grow k n.

(** Reserve changes no bit. *)
Definition said w (s : nat -> list bool) (c : cop) : option (nat -> list bool) := match c with Call o => spec_step w s o | CReserve _ _ => Some s end.
Definition allowed w (s : nat -> list bool) (c : cop) : Prop := match c with Call o => wf_op w s o | CReserve _ _ => True end.
Fixpoint said_all w (s : nat -> list bool) (l : list cop) : option (nat -> list bool) :=
  match l with [] => Some s | c :: r => match said w s c with Some s' => said_all w s' r | None => None end end.
Fixpoint allowed_all w (s : nat -> list bool) (l : list cop) : Prop :=
  match l with [] => True | c :: r => allowed w s c /\ match said w s c with Some s' => allowed_all w s' r | None => True end end.

(** A state that calls lead to. *)
Definition reached grow w (st : cstate) (s : nat -> list bool) : Prop :=
  exists l, allowed_all w (fun _ => []) l /\ said_all w (fun _ => []) l = Some s /\ crun grow w start l = Done st.

(** The bits of a bitset, its size and its capacity, as its members give them. *)
Definition shows w (st : cstate) (r : nat) (l : list bool) : Prop :=
  GetSize (bs st r) = length l /\ (forall i, i < length l -> Test w (bs st r) i = Done (nth i l false)) /\ length l <= GetCapacity w (stores st r).

Section P.
Variables (grow : nat -> nat -> nat) (w : nat).
Hypothesis G : takes_enough grow.
Hypothesis Hw : width w.

Definition inv (st : cstate) (s : nat -> list bool) : Prop := roomy st /\ repr_all w (bs st) s /\ 0 < next st /\ forall r, home (stores st r) < next st.

Lemma bits_blocks n c : n <= c * w <-> nblocks w n <= c.
Proof.
  pose proof (width_pos w Hw). destruct (nblocks_spec w n) as [A B]. split; intros Q.
  - destruct (Nat.le_gt_cases (nblocks w n) c) as [C|C]; [exact C|]. pose proof (Nat.mul_le_mono_l (S c) (nblocks w n) w C). nia.
  - pose proof (Nat.mul_le_mono_l (nblocks w n) c w Q). nia.
Qed.

Lemma inv_start : inv start (fun _ => []).
Proof. split; [intros r; cbn; lia|]. split; [apply (empty_all w)|]. cbn. split; [lia|]. intros _. lia. Qed.

(** Reserve *)
Lemma reserve_done st s r n : inv st s -> exists st', cstep grow w st (CReserve r n) = Done st' /\ inv st' s /\ (forall q, bs st' q = bs st q) /\
  kept (stores st r) (next st) (nblocks w n) (stores st' r) (next st') /\ forall q, q <> r -> stores st' q = stores st q.
Proof.
  intros (R & H & N0 & N). cbn [cstep]. unfold cReserve, c_reserve, whole, back. rewrite (ComputeBlockCount_nblocks w).
  pose proof (ensure_kept grow w G (stores st r) (next st) (nblocks w n)) as K. eexists. split; [reflexivity|].
  assert (B : forall q, sput (bs st) r (bs st r) q = bs st q) by (intros q; destruct (Nat.eq_dec q r) as [->|Q]; [apply sput_here | now apply sput_there]).
  assert (RM : room (stores st r) <= room (fst (ensure grow (stores st r) (next st) (nblocks w n)))).
  { destruct K as (K1 & _ & K3 & _). destruct (Nat.le_gt_cases (nblocks w n) (room (stores st r))) as [C|C]; [now destruct (K3 C) as [-> _] | lia]. }
  split; [|split; [exact B|split]].
  - unfold inv, roomy. cbn [bs stores next]. split; [|split; [|split]].
    + intros q. rewrite B. destruct (Nat.eq_dec q r) as [->|Q]; [rewrite tput_same; specialize (R r); lia | rewrite tput_other by exact Q; apply R].
    + intros q. rewrite B. apply H.
    + destruct K as (_ & K2 & _). lia.
    + intros q. destruct K as (_ & K2 & K3 & K4). destruct (Nat.eq_dec q r) as [->|Q]; [rewrite tput_same | rewrite tput_other by exact Q; specialize (N q); lia].
      destruct (Nat.le_gt_cases (nblocks w n) (room (stores st r))) as [C|C]; [destruct (K3 C) as [-> ->]; apply N | specialize (K4 C); lia].
  - cbn [stores next]. now rewrite tput_same.
  - intros q Q. cbn [stores]. now apply tput_other.
Qed.

Lemma call_done st s o : inv st s -> wf_op w s o ->
  match spec_step w s o with
  | Some s' => exists st', cstep grow w st (Call o) = Done st' /\ inv st' s' /\ moves st st' o
  | None => cstep grow w st (Call o) = Fault FAssert
  end.
Proof.
  intros (R & H & N0 & N) W. pose proof (cstep_done grow w G st s o R H W) as S. destruct (spec_step w s o) as [s'|]; [|exact S].
  destruct S as (st' & E & _ & R' & M). exists st'. split; [exact E|]. split; [|exact M]. destruct M as (M1 & M2 & _ & _ & _ & M3).
  split; [exact M1|]. split; [exact R'|]. split; [lia|]. intros q. destruct (M3 q) as [[p ->]|[-> |M]]; [specialize (N p); lia | cbn; lia | lia].
Qed.

Lemma step_done st s c : inv st s -> allowed w s c ->
  match said w s c with Some s' => exists st', cstep grow w st c = Done st' /\ inv st' s' | None => cstep grow w st c = Fault FAssert end.
Proof.
  intros I W. destruct c as [o|r n]; cbn [said allowed] in *.
  - pose proof (call_done st s o I W) as S. destruct (spec_step w s o) as [s'|]; [|exact S]. destruct S as (st' & E & I' & _). eauto.
  - destruct (reserve_done st s r n I) as (st' & E & I' & _). eauto.
Qed.

Lemma run_done l : forall st s, inv st s -> allowed_all w s l ->
  match said_all w s l with Some s' => exists st', crun grow w st l = Done st' /\ inv st' s' | None => crun grow w st l = Fault FAssert end.
Proof.
  induction l as [|c l IH]; intros st s I W; cbn [said_all allowed_all crun] in *; [eauto|].
  destruct W as [W1 W2]. pose proof (step_done st s c I W1) as S. destruct (said w s c) as [s'|]; [|now rewrite S].
  destruct S as (st' & -> & I'). cbn [bind]. now apply IH.
Qed.

Lemma reached_inv st s : reached grow w st s -> inv st s.
Proof.
  intros (l & W & E & C). pose proof (run_done l start (fun _ => []) inv_start W) as S. rewrite E in S. destruct S as (st' & C' & I'). congruence.
Qed.

Lemma inv_shows st s r : inv st s -> shows w st r (s r).
Proof.
  intros (R & H & _). split; [apply (H r)|]. split.
  - intros i Hi. rewrite (Test_repr w (bs st r) (s r) i (H r)). destruct (Nat.ltb_spec i (length (s r))); [reflexivity | lia].
  - unfold GetCapacity. apply bits_blocks. rewrite <- (block_count w _ _ (H r)). apply R.
Qed.
End P.

(** Whatever calls are made, a bitset has the bits the calls give it, and its capacity is never below its size. *)
Theorem C144_history : forall grow w, takes_enough grow -> width w -> forall l, allowed_all w (fun _ => []) l ->
  match said_all w (fun _ => []) l with
  | Some s => exists st, crun grow w start l = Done st /\ forall r, shows w st r (s r)
  | None => crun grow w start l = Fault FAssert
  end.
Proof.
  intros grow w G Hw l W. pose proof (run_done grow w G Hw l start (fun _ => []) (inv_start w Hw) W) as S.
  destruct (said_all w (fun _ => []) l) as [s|]; [|exact S]. destruct S as (st & E & I). exists st. split; [exact E|]. intros r. now apply (inv_shows w Hw).
Qed.
Print Assumptions C144_history.

(** Reserve changes no bit; afterwards the capacity is at least what was asked for, and no smaller than before; it allocates exactly when the
    capacity was below. *)
Theorem C144_reserve : forall grow w, takes_enough grow -> width w -> forall st s, reached grow w st s -> forall r n,
  exists st', cstep grow w st (CReserve r n) = Done st' /\ (forall q, bs st' q = bs st q) /\ (forall q, q <> r -> stores st' q = stores st q) /\
    n <= GetCapacity w (stores st' r) /\
    (n <= GetCapacity w (stores st r) -> stores st' r = stores st r /\ next st' = next st) /\
    (GetCapacity w (stores st r) < n -> home (stores st' r) = next st /\ next st' = S (next st) /\ forall q, home (stores st q) <> home (stores st' r)).
Proof.
  intros grow w G Hw st s Q r n. pose proof (reached_inv grow w G Hw st s Q) as I. destruct (reserve_done grow w G Hw st s r n I) as (st' & E & I' & B & K & O).
  exists st'. split; [exact E|]. split; [exact B|]. split; [exact O|]. destruct K as (K1 & K2 & K3 & K4). unfold GetCapacity.
  split; [now apply (bits_blocks w Hw)|]. split; [intros C; apply K3; now apply (bits_blocks w Hw)|]. intros C.
  assert (D : room (stores st r) < nblocks w n).
  { destruct (Nat.le_gt_cases (nblocks w n) (room (stores st r))) as [D|D]; [apply (bits_blocks w Hw) in D; lia | exact D]. }
  cbn [cstep] in E. unfold cReserve, c_reserve, whole, back in E. rewrite (ComputeBlockCount_nblocks w) in E. unfold ensure in E.
  destruct (Nat.leb_spec (nblocks w n) (room (stores st r))); [lia|]. cbn [fst snd] in E. injection E as <-. cbn [stores next]. rewrite tput_same. cbn [home].
  split; [reflexivity|]. split; [reflexivity|]. intros q. destruct I as (_ & _ & _ & N). specialize (N q). lia.
Qed.
Print Assumptions C144_reserve.

(** A call other than a construction or an exchange keeps the blocks of a bitset where they are as long as its new size is within its capacity;
    otherwise they are in memory that none of the bitsets used. *)
Theorem C144_call : forall grow w, takes_enough grow -> width w -> forall st s, reached grow w st s -> forall o s', wf_op w s o -> spec_step w s o = Some s' ->
  exists st', cstep grow w st (Call o) = Done st' /\ forall r, ~ replaces r o ->
    (length (s' r) <= GetCapacity w (stores st r) -> stores st' r = stores st r) /\
    (GetCapacity w (stores st r) < length (s' r) -> length (s' r) <= GetCapacity w (stores st' r) /\ forall q, home (stores st q) < home (stores st' r)).
Proof.
  intros grow w G Hw st s Q o s' W E. pose proof (reached_inv grow w G Hw st s Q) as I. pose proof (call_done grow w G Hw st s o I W) as S. rewrite E in S.
  destruct S as (st' & C & I' & M). exists st'. split; [exact C|]. intros r N. destruct M as (_ & _ & M & _). destruct (M r N) as [M1 M2].
  pose proof I' as (R' & H' & _). rewrite (block_count w _ _ (H' r)) in M1, M2. unfold GetCapacity. split.
  - intros L. apply M1. now apply (bits_blocks w Hw).
  - intros L. split; [exact (proj2 (proj2 (inv_shows w Hw st' s' r I')))|].
    assert (D : room (stores st r) < nblocks w (length (s' r))).
    { destruct (Nat.le_gt_cases (nblocks w (length (s' r))) (room (stores st r))) as [D|D]; [apply (bits_blocks w Hw) in D; lia | exact D]. }
    specialize (M2 D). intros q. destruct I as (_ & _ & _ & NH). specialize (NH q). lia.
Qed.
Print Assumptions C144_call.

(** Along a history: [r] is given no other storage and is never asked for more than [n] bits. *)
Fixpoint within w (r n : nat) (s : nat -> list bool) (l : list cop) : Prop :=
  match l with
  | [] => True
  | c :: l => match c with Call o => ~ replaces r o | CReserve q m => q = r -> m <= n end /\
      match said w s c with Some s' => length (s' r) <= n /\ within w r n s' l | None => True end
  end.

Theorem C144_stays : forall grow w, takes_enough grow -> width w -> forall st s, reached grow w st s -> forall r l,
  allowed_all w s l -> within w r (GetCapacity w (stores st r)) s l -> forall st', crun grow w st l = Done st' -> stores st' r = stores st r.
Proof.
  intros grow w G Hw st s Q r l. pose proof (reached_inv grow w G Hw st s Q) as I. clear Q. revert st s I.
  induction l as [|c l IH]; intros st s I W H st' E; cbn [allowed_all within crun] in *; [now injection E as <-|]. destruct W as [W1 W2]. destruct H as [H1 H2].
  destruct c as [o|q m]; cbn [said allowed] in *.
  - pose proof (call_done grow w G Hw st s o I W1) as S. destruct (spec_step w s o) as [s1|]; [|rewrite S in E; discriminate].
    destruct S as (st1 & E1 & I1 & M). rewrite E1 in E. cbn [bind] in E. destruct H2 as [H2 H3].
    assert (K : stores st1 r = stores st r).
    { destruct M as (_ & _ & M & _). destruct (M r H1) as [M1 _]. apply M1. destruct I1 as (_ & R1 & _). rewrite (block_count w _ _ (R1 r)). now apply (bits_blocks w Hw). }
    rewrite <- K in H3. rewrite <- K. now apply (IH st1 s1).
  - destruct (reserve_done grow w G Hw st s q m I) as (st1 & E1 & I1 & B & K & O). rewrite E1 in E. cbn [bind] in E. destruct H2 as [H2 H3].
    assert (KK : stores st1 r = stores st r).
    { destruct (Nat.eq_dec q r) as [->|D]; [|apply O; congruence]. destruct K as (_ & _ & K & _). apply K. apply (bits_blocks w Hw). now apply H1. }
    rewrite <- KK in H3. rewrite <- KK. now apply (IH st1 s).
Qed.
Print Assumptions C144_stays.

(** Nothing is allocated while every bitset is within its capacity. *)
Definition settled (c : cop) : Prop := match c with Call o => ~ constructs o /\ forall r, ~ replaces r o | CReserve _ _ => True end.
Theorem C144_nothing_allocated : forall grow w, takes_enough grow -> width w -> forall st s, reached grow w st s -> forall l,
  allowed_all w s l -> Forall settled l -> (forall r, within w r (GetCapacity w (stores st r)) s l) -> forall st', crun grow w st l = Done st' -> next st' = next st.
Proof.
  intros grow w G Hw st s Q l. pose proof (reached_inv grow w G Hw st s Q) as I. clear Q. revert st s I.
  induction l as [|c l IH]; intros st s I W F H st' E; cbn [allowed_all crun] in *; [now injection E as <-|]. destruct W as [W1 W2]. inversion F as [|? ? F1 F2]; subst.
  destruct c as [o|q m]; cbn [said allowed] in *.
  - pose proof (call_done grow w G Hw st s o I W1) as S. destruct (spec_step w s o) as [s1|] eqn:SP; [|rewrite S in E; discriminate].
    destruct S as (st1 & E1 & I1 & M). rewrite E1 in E. cbn [bind] in E. destruct F1 as [F1 F3].
    assert (L : forall r, length (blocks (bs st1 r)) <= room (stores st r)).
    { intros r. destruct (H r) as [_ H2]. cbn [said] in H2. rewrite SP in H2. destruct I1 as (_ & R1 & _). rewrite (block_count w _ _ (R1 r)). now apply (bits_blocks w Hw). }
    destruct M as (_ & _ & M & MN & _). rewrite <- (MN F1) by (intros r; right; apply L).
    apply (IH st1 s1 I1 W2 F2); [|exact E]. intros r. destruct (M r (F3 r)) as [M1 _]. rewrite (M1 (L r)). destruct (H r) as [_ H2]. cbn [said] in H2. rewrite SP in H2. apply H2.
  - destruct (reserve_done grow w G Hw st s q m I) as (st1 & E1 & I1 & B & K & O). rewrite E1 in E. cbn [bind] in E.
    destruct K as (_ & _ & K & _). destruct (K ltac:(apply (bits_blocks w Hw); now apply (H q))) as [K1 K2]. rewrite <- K2. apply (IH st1 s I1 W2 F2); [|exact E].
    intros r. assert (KK : stores st1 r = stores st r) by (destruct (Nat.eq_dec r q) as [->|D]; [exact K1 | now apply O]). rewrite KK. apply (H r).
Qed.
Print Assumptions C144_nothing_allocated.

(** Assigning a text (or a number) throws the reserved memory away: with a library that takes exactly what is asked, the capacity is below
    what was reserved. *)
Theorem C144_text_refuted : forall w, width w -> forall t n, Forall (fun c => c = 48%N \/ c = 49%N) t -> t <> [] -> length t + w <= n ->
  exists st, crun (fun _ n => n) w start [CReserve 0 n; Call (OString 0 t)] = Done st /\ GetSize (bs st 0) = length t /\ GetCapacity w (stores st 0) < n.
Proof.
  intros w Hw t n D T L. apply digits_iff in D. assert (G : takes_enough (fun _ n => n)) by (intros ? ?; lia).
  pose proof (C144_history _ w G Hw [CReserve 0 n; Call (OString 0 t)]) as H. cbn [allowed_all allowed said said_all spec_step wf_op] in H. rewrite D in H.
  destruct (H ltac:(auto)) as (st & E & V). exists st. split; [exact E|]. destruct (V 0) as (V1 & _ & _). split; [rewrite V1, lput_here, rev_length, map_length; reflexivity|].
  clear H V V1. cbn [crun cstep bind] in E. unfold at_one, c_of_string, fresh, c_resize, in_place in E.
  match type of E with context [bind (foreach ?a ?f ?i) _] => destruct (foreach a f i) as [b|x] end; cbn [bind] in E; [|discriminate]. injection E as <-.
  cbn [back stores]. rewrite tput_same. unfold ensure, GetCapacity. cbn [no_storage room]. rewrite (ComputeBlockCount_nblocks w).
  destruct (nblocks_spec w (length t)) as [N1 N2]. destruct (Nat.leb_spec (nblocks w (length t)) 0) as [C|C]; cbn [fst room no_storage]; [|rewrite Nat.mul_comm; lia].
  pose proof (width_pos w Hw). lia.
Qed.
Print Assumptions C144_text_refuted.

(** Not vacuous: sizes and capacities along a history, with a library that doubles. *)
Example C144_example : exists st, crun (fun _ n => 2 * n) 8 start
    [CReserve 0 20; Call (OAppend 0 8 5 3); Call (OUSet 0 19 true); Call (OResize 0 48 false); Call (OClear 0)] = Done st /\
  GetSize (bs st 0) = 0 /\ GetCapacity 8 (stores st 0) = 48 /\ next st = 2.
Proof. eexists. split; [vm_compute; reflexivity|]. split; [reflexivity|]. split; reflexivity. Qed.
Example C144_example_grows : exists st, crun (fun _ n => 2 * n) 8 start [CReserve 0 20; Call (OResize 0 49 false)] = Done st /\ next st = 3.
Proof. eexists. split; [vm_compute; reflexivity|]. reflexivity. Qed.
Example C144_example_reached : exists st s, reached (fun _ n => 2 * n) 8 st s /\ within 8 0 (GetCapacity 8 (stores st 0)) s [Call (OResize 0 48 true); Call (OClear 0)].
Proof.
  eexists; eexists. split.
  - exists [CReserve 0 20]. split; [cbn; auto|]. split; [reflexivity|]. vm_compute. reflexivity.
  - cbn [within said spec_step replaces]. split; [exact (fun x => x)|]. split; [apply Nat.leb_le; vm_compute; reflexivity|].
    split; [exact (fun x => x)|]. split; [apply Nat.leb_le; vm_compute; reflexivity | exact Logic.I].
Qed.
