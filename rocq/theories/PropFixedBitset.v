(** Property C112: FixedBitset and HybridBitset (Bitset.hpp 146-150) behave as Bitset.
    [has] tells HybridBitset (true) from FixedBitset (false); [block_capacity Capacity] is the capacity of their container. *)
From Verif Require Import Base CInt MathModel BitsetModel BitsetSpec BitsetBits BitsetProofs BitsetFind BitsetShift BitsetLogic BitsetInt BitsetWrite BitsetHistory.
From Verif Require Import VectorModel VectorProofs VectorCopy FixedBitsetModel FixedBitsetProofs FixedBitsetCopy FixedBitsetHistory.
Open Scope nat_scope.

(** All that a client can observe of one bitset that should hold the bits [l]. *)
Definition fobserves has w (g : fbitset) (l : list bool) : Prop :=
  fb_GetSize g = length l /\ fb_GetBlockCount has g = (length l + w - 1) / w /\
  (forall i, fb_Test has w g i = if i <? length l then Done (nth i l false) else Fault FAssert) /\
  (forall i, fb_UnboundedTest has w g i = Done (nth i l false)) /\
  fb_Count has w g = Done (count_occ Bool.bool_dec l true) /\
  fb_FindFirst has w g = Done (s_find l 0) /\
  (forall i, fb_FindNext has w g i = if i <? length l then Done (s_find l (i + 1)) else Fault FAssert) /\
  fb_TestAll has w g = Done (forallb (fun x => x) l) /\
  fb_TestAny has g = Done (existsb (fun x => x) l) /\
  fb_TestNone has g = Done (forallb negb l) /\
  fb_ToString has w g = Done (s_string l) /\
  (forall tw, fb_To has w tw g = if length l <=? tw then Done (s_value l) else Fault FAssert).

Definition frepr has cap w (g : fbitset) (l : list bool) : Prop := exists b, repr w b l /\ brel has cap b g.

Lemma sim_eq {A} (x y : outcome A) r : sim False eq x y -> x = r -> (match r with Done _ => True | Fault f => f = FAssert end) -> y = r.
Proof. intros S -> H. destruct r as [a|f]; [|now subst f]. destruct S as [(b & -> & ->)|[_ []]]. reflexivity. Qed.

Lemma frepr_observes has cap w {Hw : width w} g l : frepr has cap w g l -> fobserves has w g l.
Proof.
  intros (b & R & H). pose proof R as (HC & HL & _ & _). unfold fobserves.
  split; [rewrite (r_size has cap _ _ H); exact HC|]. split; [rewrite (r_count has cap _ _ H); exact HL|].
  split; [intros i; apply (sim_eq _ _ _ (s_Test has cap w False b g i H) (Test_repr w b l i R)); now destruct (_ <? _)|].
  split; [intros i; exact (sim_eq _ _ _ (s_UnboundedTest has cap w False b g i H) (UnboundedTest_repr w b l i R) I)|].
  split; [apply (sim_eq _ _ _ (s_Count has cap w False b g H)); [now rewrite (Count_repr w b l R) | exact I]|].
  split; [rewrite (FindFirst_done has cap w b g H); now rewrite (FindFirst_repr w b l R)|].
  split; [intros i; apply (sim_eq _ _ _ (s_FindNext has cap w False b g i H) (FindNext_repr w b l i R)); now destruct (_ <? _)|].
  split; [exact (sim_eq _ _ _ (s_TestAll has cap w False b g H) (TestAll_repr w b l R) I)|].
  split; [rewrite (TestAny_done has cap b g H); now rewrite (TestAny_repr w b l R)|].
  split; [rewrite (TestNone_done has cap b g H); now rewrite (TestNone_repr w b l R)|].
  split; [exact (sim_eq _ _ _ (s_ToString has cap w False b g H) (ToString_repr w b l R) I)|].
  intros tw. apply (sim_eq _ _ _ (s_To has cap w False tw b g H) (To_repr w b l tw R)). now destruct (_ <=? _).
Qed.

(** *** C112 *)
(** Any history: the bits are those of a Bitset, and an assertion fails exactly when one would for a Bitset or when the result does not fit. *)
Theorem C112_history : forall has cap w, width w -> forall ops, bounded_wf has cap w (fun _ => []) ops ->
  match bounded_run has cap w (fun _ => []) ops with
  | Some s => exists g, frun has cap w (fun _ => fb_empty cap) ops = Done g /\ forall r, fobserves has w (g r) (s r)
  | None => frun has cap w (fun _ => fb_empty cap) ops = Fault FAssert
  end.
Proof.
  intros has cap w Hw ops W. pose proof (bounded_sim has cap w ops _ _ _ (empty_all w) (empty_srel has cap) W) as S.
  destruct (bounded_run _ _ _ _ _) as [s|]; [|exact S]. destruct S as (st & g & _ & R & E & H).
  exists g. split; [exact E|]. intros r. apply frepr_observes with cap; [assumption|]. exists (st r). split; [apply R | apply H].
Qed.
Print Assumptions C112_history.

(** Comparisons between two of them. *)
Theorem C112_pairs : forall has cap w, width w -> forall ops s, bounded_wf has cap w (fun _ => []) ops -> bounded_run has cap w (fun _ => []) ops = Some s ->
  exists g, frun has cap w (fun _ => fb_empty cap) ops = Done g /\ forall a b,
    (exists r, fb_equals has (g a) (g b) = Done r /\ (r = true <-> forall i, nth i (s a) false = nth i (s b) false)) /\
    fb_Intersects has (g a) (g b) = Done (existsb (fun i => nth i (s a) false && nth i (s b) false) (seq 0 (length (s a)))).
Proof.
  intros has cap w Hw ops s W ES. pose proof (bounded_sim has cap w ops _ _ _ (empty_all w) (empty_srel has cap) W) as S. rewrite ES in S.
  destruct S as (st & g & _ & R & E & H). exists g. split; [exact E|]. intros a b. split.
  - destruct (equals_repr w (st a) (st b) (s a) (s b) (R a) (R b)) as (r & Q & I1). exists r. split; [|exact I1].
    exact (sim_eq _ _ _ (s_equals has cap False _ _ _ _ (H a) (H b)) Q I).
  - exact (sim_eq _ _ _ (s_Intersects has cap False _ _ _ _ (H a) (H b)) (Intersects_repr w _ _ _ _ (R a) (R b)) I).
Qed.
Print Assumptions C112_pairs.

(** The blocks, as numbers. *)
Definition s_block w (l : list bool) (i : nat) : N := s_value (firstn w (skipn (w * i) l)).
Lemma block_value w {Hw : width w} b l i : repr w b l -> nth i (blocks b) 0%N = s_block w l i.
Proof.
  intros (_ & _ & SM & HB). symmetry. apply s_value_ext. intros k. unfold sbit. destruct (Nat.lt_ge_cases k w) as [K|K].
  - assert (E : nth k (firstn w (skipn (w * i) l)) false = nth (w * i + k) l false).
    { rewrite <- (firstn_skipn (w * i) l) at 2. destruct (Nat.lt_ge_cases (length l) (w * i)) as [L|L].
      - rewrite (skipn_all2 l) by lia. rewrite app_nil_r, firstn_nil, (nth_overflow (firstn _ _)) by (rewrite firstn_length; lia). now destruct k.
      - rewrite app_nth2 by (rewrite firstn_length; lia). rewrite firstn_length, Nat.min_l by lia. replace (w * i + k - w * i) with k by lia.
        generalize (skipn (w * i) l). clear - K. intros m. revert w K m. induction k as [|k IH]; intros [|w] K [|x m]; cbn [firstn nth]; try reflexivity; try lia. apply IH. lia. }
    rewrite E. change (nth (w * i + k) l false) with (sbit l (w * i + k)). rewrite <- HB. unfold lbit. now rewrite (div_unique_w w), (mod_unique_w w) by lia.
  - rewrite nth_overflow by (rewrite firstn_length; lia). symmetry. assert (B : (nth i (blocks b) 0 < 2 ^ N.of_nat w)%N).
    { destruct (Nat.lt_ge_cases i (length (blocks b))) as [L|L]; [exact (proj1 (Forall_nth _ _) SM i 0%N L) | rewrite nth_overflow by lia; apply N.neq_0_lt_0, N.pow_nonzero; discriminate]. }
    destruct (N.eq_dec (nth i (blocks b) 0%N) 0) as [->|NZ]; [apply N.bits_0|]. apply N.bits_above_log2. apply N.log2_lt_pow2 in B; lia.
Qed.
(** operator< (C14): different numbers of blocks fail an assertion; else it tells whether some block is less than the other's. *)
Theorem C112_less : forall has cap w, width w -> forall ops s, bounded_wf has cap w (fun _ => []) ops -> bounded_run has cap w (fun _ => []) ops = Some s ->
  exists g, frun has cap w (fun _ => fb_empty cap) ops = Done g /\ forall a b, let n l := (length l + w - 1) / w in
    fb_less has (g a) (g b) = if n (s a) =? n (s b) then Done (existsb (fun i => (s_block w (s a) i <? s_block w (s b) i)%N) (rev (range 0 (n (s a))))) else Fault FAssert.
Proof.
  intros has cap w Hw ops s W ES. pose proof (bounded_sim has cap w ops _ _ _ (empty_all w) (empty_srel has cap) W) as S. rewrite ES in S.
  destruct S as (st & g & _ & R & E & H). exists g. split; [exact E|]. intros a b n.
  assert (L : less (st a) (st b) = if n (s a) =? n (s b) then Done (existsb (fun i => (s_block w (s a) i <? s_block w (s b) i)%N) (rev (range 0 (n (s a))))) else Fault FAssert).
  { rewrite (less_exact w). pose proof (R a) as (_ & LA & _). pose proof (R b) as (_ & LB & _). unfold n. unfold nblocks in LA, LB. rewrite LA, LB. destruct (_ =? _); [|reflexivity]. f_equal. induction (rev (range 0 ((length (s a) + w - 1) / w))) as [|i r IH]; [reflexivity|]. cbn [existsb]. now rewrite IH, (block_value w _ _ i (R a)), (block_value w _ _ i (R b)). }
  apply (sim_eq _ _ _ (s_less has cap False _ _ _ _ (H a) (H b)) L). now destruct (_ =? _).
Qed.
Print Assumptions C112_less.

(** A HybridBitset has no bound. *)
Fixpoint no_self_copy (ops : list op) : Prop := match ops with [] => True | o :: r => distinct o /\ no_self_copy r end.
Theorem C112_hybrid : forall cap w, width w -> forall ops, wf_run w (fun _ => []) ops -> no_self_copy ops ->
  match spec_run w (fun _ => []) ops with
  | Some s => exists g, frun true cap w (fun _ => fb_empty cap) ops = Done g /\ forall r, fobserves true w (g r) (s r)
  | None => frun true cap w (fun _ => fb_empty cap) ops = Fault FAssert
  end.
Proof.
  intros cap w Hw ops W N.
  assert (G : forall ops s, wf_run w s ops -> no_self_copy ops -> bounded_wf true cap w s ops /\ bounded_run true cap w s ops = spec_run w s ops).
  { clear. induction ops as [|o ops IH]; intros s W N; cbn [wf_run no_self_copy bounded_wf bounded_run spec_run] in *; [auto|].
    destruct W as [W1 W2]. destruct N as [N1 N2]. destruct (spec_step w s o) as [s'|]; [|auto].
    destruct (IH s' W2 N2) as [I1 I2]. cbn [holdable orb]. auto. }
  destruct (G ops _ W N) as [B1 B2]. pose proof (C112_history true cap w Hw ops B1) as H. now rewrite B2 in H.
Qed.
Print Assumptions C112_hybrid.

(** A FixedBitset of [Capacity] bits holds that many, and exactly as many as its blocks have. *)
Theorem C112_capacity : forall w, width w -> forall Capacity n v,
  fb_make false (block_capacity Capacity) w n v = Fault FAssert <-> w * ((Capacity + 7) / 8) < n.
Proof.
  intros w Hw Capacity n v. set (cap := block_capacity Capacity).
  pose proof (holdable_spec false cap w n) as HS. destruct (make_repr w n v) as (b & E & R).
  pose proof (s_make false cap w (overflow false cap (nblocks w n)) n v) as S. rewrite (ComputeBlockCount_nblocks w) in S. specialize (S (fun x => x)). rewrite E in S.
  change ((Capacity + 7) / 8) with cap. unfold holdable in HS. cbn [orb] in HS. rewrite Nat.leb_le in HS. split.
  - intros F. destruct S as [(g & D & _)|[_ O]]; [rewrite D in F; discriminate|]. destruct (Nat.le_gt_cases n (w * cap)) as [C|C]; [|exact C].
    exfalso. now apply (proj1 HS C).
  - intros F. destruct S as [(g & D & H)|[D _]]; [|exact D]. exfalso.
    pose proof (rel_fits false cap w b g _ H R) as Q. rewrite repeat_length in Q. apply HS in Q. lia.
Qed.
Print Assumptions C112_capacity.
Theorem C112_capacity_enough : forall w, width w -> forall Capacity n, n <= Capacity -> holdable false (block_capacity Capacity) w n = true.
Proof.
  intros w Hw Capacity n H. unfold holdable, block_capacity. cbn [orb]. apply Nat.leb_le.
  assert (8 <= w) by (destruct Hw as [W|[W|[W|W]]]; lia).
  pose proof (Nat.div_mod (Capacity + 7) 8 ltac:(lia)). pose proof (Nat.mod_upper_bound (Capacity + 7) 8 ltac:(lia)).
  pose proof (Nat.mul_le_mono_r 8 w ((Capacity + 7) / 8) ltac:(lia)). lia.
Qed.
Print Assumptions C112_capacity_enough.

(** Copies. *)
Theorem C112_copy : forall has cap w, width w -> forall g l, frepr has cap w g l -> exists g', fb_copy has cap g = Done g' /\ fobserves has w g' l.
Proof.
  intros has cap w Hw g l (b & R & [HB E]). destruct (copy_done has cap _ _ HB) as (v & D & R'). unfold fb_copy. rewrite D. cbn [bind].
  eexists. split; [reflexivity|]. apply frepr_observes with cap; [assumption|]. exists b. split; [exact R|]. now split.
Qed.
Print Assumptions C112_copy.

(** Assigning a FixedBitset to itself loses every bit and keeps the size: afterwards no bit can be read. *)
Theorem C112_self_assign_refuted : forall cap w, width w -> forall st d l, frepr false cap w (st d) l -> l <> [] ->
  exists st', fb_assign false cap st d d = Done st' /\ fb_GetSize (st' d) = length l /\ fb_GetBlockCount false (st' d) = 0 /\
    (forall i, fb_Test false w (st' d) i = Fault FAssert) /\ fb_Count false w (st' d) = Done 0.
Proof.
  intros cap w Hw st d l (b & R & [HB E]) Hl. pose proof R as (HC & HL & _).
  unfold fb_assign. rewrite Nat.eqb_refl. inversion HB as [F EV|m F EV]; [|discriminate].
  rewrite (assign_self_inline false cap _ 0 (map Some (blocks b))) by (rewrite ?map_length; auto). cbn [bind upd vget nth_error].
  eexists. split; [reflexivity|]. unfold fput, fb_GetSize, fb_GetBlockCount, fb_Test, fb_Count. rewrite Nat.eqb_refl. cbn [fblocks fcount].
  split; [congruence|]. split; [reflexivity|]. split; [|reflexivity].
  intros i. rewrite E. destruct (i <? bitCount b); [|reflexivity]. cbn [assert bind]. unfold bget, fv_at. rewrite size_inl. cbn [length].
  destruct (Nat.ltb_spec (GetBlockIndex w i) 0); [lia | reflexivity].
Qed.
Print Assumptions C112_self_assign_refuted.

Definition demo : list op :=
  [OMake 0 11 false; OSet 0 3 true; OFlip 0; OCopy 1 0; OAppend 0 8 5 3; OSwap 0 3; OWrite 4 [165; 60]%N 0 4 12].
Definition bits_of has w (g : nat -> fbitset) r : option (list bool) :=
  match foreach (range 0 (fb_GetSize (g r))) (fun l i => t <- fb_Test has w (g r) i ;; Done (l ++ [t : bool])) [] with Done l => Some l | _ => None end.
(** FixedBitset<UInt8, 24>, then HybridBitset<UInt8, 16>, which spills. *)
Example C112_nonvacuous : bounded_wf false (block_capacity 24) 8 (fun _ => []) demo /\
  (exists s, bounded_run false (block_capacity 24) 8 (fun _ => []) demo = Some s /\ length (s 0) = 0 /\ length (s 1) = 11 /\ length (s 3) = 14 /\ length (s 4) = 12) /\
  wf_run 8 (fun _ => []) demo /\ no_self_copy demo.
Proof.
  split; [|split; [eexists; split; [reflexivity | vm_compute; auto]|split]].
  - cbn [bounded_wf demo]. repeat split; try (vm_compute; lia); try (left; lia); try (repeat constructor).
  - cbn [wf_run wf_op spec_step demo]. repeat split; try (vm_compute; lia); try (left; lia); try (repeat constructor).
  - repeat split; discriminate.
Qed.
Example C112_demo_bits : forall has, match frun has 2 8 (fun _ => fb_empty 2) [OMake 0 5 true; OMake 1 12 false; OSet 1 9 true; OSwap 0 1; OCopy 2 0] with
  | Done g => bits_of has 8 g 0 = bits_of has 8 g 2 /\ bits_of has 8 g 1 = Some (repeat true 5) | Fault _ => False end.
Proof. intros []; vm_compute; auto. Qed.
Example C112_overflow : frun false 2 8 (fun _ => fb_empty 2) [OMake 0 16 true; OUSet 0 16 true] = Fault FAssert /\
  match frun true 2 8 (fun _ => fb_empty 2) [OMake 0 16 true; OUSet 0 16 true] with Done g => bits_of true 8 g 0 = Some (repeat true 17) | Fault _ => False end.
Proof. split; vm_compute; reflexivity. Qed.
Example C112_frepr_nonvacuous : exists g, fb_make false 2 8 11 true = Done g /\ frepr false 2 8 g (repeat true 11).
Proof.
  eexists. split; [reflexivity|]. destruct (@make_repr 8 width8 11 true) as (b & E & R). exists b. split; [exact R|]. vm_compute in E. injection E as <-.
  split; [|reflexivity]. change (wrep false 2 [255; 7]%N (inl 2 (map Some [255; 7]%N))). constructor. simpl. lia.
Qed.
Example C112_less_example : forall has, match frun has 2 8 (fun _ => fb_empty 2) [OMake 0 12 false; OMake 1 12 false; OSet 0 9 true; OSet 1 0 true; OSet 1 8 true; OMake 2 5 true] with
  | Done g => fb_less has (g 0) (g 1) = Done true /\ fb_less has (g 1) (g 0) = Done true /\ fb_less has (g 0) (g 0) = Done false /\ fb_less has (g 0) (g 2) = Fault FAssert | Fault _ => False end.
Proof. intros []; vm_compute; auto. Qed.
