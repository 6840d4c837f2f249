(** Property C122: what std::bad_alloc leaves of a bitset. *)
From Verif Require Import Base CInt MathModel BitsetModel BitsetSpec BitsetBits BitsetProofs BitsetInt BitsetLogic BitsetThrowModel BitsetThrow.
Open Scope nat_scope.

(** [k] is the number of times the container still gets the memory it asks for. *)

(** Resize either does what it should or changes nothing, and it fails only when more blocks are needed and no memory is left. *)
Theorem C122_resize : forall w, width w -> forall b l n v k, repr w b l ->
  match aResize w b n v k with
  | Val _ (b', _) => repr w b' (firstn n l ++ repeat v (n - length l))
  | Thrown (b', _) => b' = b /\ k = 0 /\ w * length (blocks b) < n
  | Bad _ => False
  end.
Proof.
  intros w Hw b l n v k R. pose proof (aResize_same w b n v k) as S. pose proof (aResize_thrown w b n v k) as T.
  destruct (Resize_repr w b l n v R) as (b' & E & R').
  destruct (aResize w b n v k) as [u [b1 k1]|[b1 k1]|f]; cbn [same fst] in S.
  - rewrite E in S. injection S as <-. exact R'.
  - destruct T as (T & K & Q). injection T as -> _. split; [reflexivity|]. split; [exact K|].
    destruct (nblocks_spec w n) as [N1 N2]. pose proof (width_pos w Hw).
    assert (w * (length (blocks b) + 1) <= w * nblocks w n) by (apply (wmul_mono w); lia). lia.
  - congruence.
Qed.
Print Assumptions C122_resize.
Theorem C122_resize_needs_memory : forall w, width w -> forall b l n v, repr w b l -> w * length (blocks b) < n ->
  aResize w b n v 0 = Thrown (b, 0).
Proof.
  intros w Hw b l n v R H. pose proof (aResize_thrown w b n v 0) as T. pose proof (aResize_same w b n v 0) as S.
  destruct (nblocks_spec w n) as [N1 N2].
  assert (Q : length (blocks b) < nblocks w n) by (pose proof (width_pos w Hw); apply (wmul_lt w); lia).
  destruct (aResize w b n v 0) as [u [b1 k1]|[b1 k1]|f].
  - exact (False_ind _ (T Q eq_refl)).
  - destruct T as (T & _). now rewrite T.
  - exact (False_ind _ (T Q eq_refl)).
Qed.
Print Assumptions C122_resize_needs_memory.
Example C122_resize_nonvacuous : aResize 8 (mkB [5]%N 3) 20 true 0 = Thrown (mkB [5]%N 3, 0) /\
  aResize 8 (mkB [5]%N 3) 20 true 1 = Val tt (mkB [253; 255; 15]%N 20, 0) /\ aResize 8 (mkB [5]%N 3) 8 true 0 = Val tt (mkB [253]%N 8, 0).
Proof. vm_compute. auto. Qed.

Theorem C122_unbounded_set : forall w, width w -> forall b l i v k, repr w b l ->
  match aUnboundedSet w b i v k with
  | Val _ (b', _) => repr w b' (s_uset l i v)
  | Thrown (b', _) => b' = b /\ length l <= i /\ v = true /\ k = 0
  | Bad _ => False
  end.
Proof.
  intros w Hw b l i v k R. pose proof (aUnboundedSet_same w b i v k) as S. pose proof (aUnboundedSet_thrown w b i v k) as T.
  destruct (UnboundedSet_repr w b l i v R) as (b' & E & R').
  assert (TH : forall s, aUnboundedSet w b i v k = Thrown s -> length l <= i /\ v = true /\ k = 0).
  { intros s. unfold aUnboundedSet. destruct R as (HC & _). rewrite HC. destruct (Nat.ltb_spec i (length l)).
    - destruct (Set_ w b i v); discriminate.
    - destruct v; [|discriminate]. pose proof (aResize_thrown w b (i + 1) false k) as U.
      destruct (aResize w b (i + 1) false k) as [u [b1 k1]|s1|f]; cbn [tbind].
      + destruct (Set_ w b1 i true); discriminate.
      + intros _. now destruct U as (_ & U & _).
      + discriminate. }
  destruct (aUnboundedSet w b i v k) as [u [b1 k1]|[b1 k1]|f]; cbn [same thrown fst] in *.
  - rewrite E in S. injection S as <-. exact R'.
  - split; [now symmetry|]. now apply (TH (b1, k1)).
  - congruence.
Qed.
Print Assumptions C122_unbounded_set.
Example C122_unbounded_set_nonvacuous : aUnboundedSet 8 (mkB [5]%N 3) 9 true 0 = Thrown (mkB [5]%N 3, 0) /\
  aUnboundedSet 8 (mkB [5]%N 3) 9 true 1 = Val tt (mkB [5; 2]%N 10, 0).
Proof. vm_compute. auto. Qed.

(** The logical operators, for every aliasing of the destination and the operands: done, or nothing changed. *)
Theorem C122_logic : forall w, width w -> forall st d a b la lb k, repr w (st a) la -> repr w (st b) lb ->
  let all_or_nothing f (e : eff ((nat -> bitset) * nat) unit) :=
    match e with
    | Val _ (st', _) => (exists l, repr w (st' d) l /\ length l = Nat.max (length la) (length lb) /\
        forall i, i < length l -> nth i l false = f (nth i la false) (nth i lb false)) /\ forall r, r <> d -> st' r = st r
    | Thrown (st', _) => forall r, st' r = st r
    | Bad _ => False
    end in
  all_or_nothing andb (aPerformsAND w st d a b k) /\ all_or_nothing orb (aPerformsOR w st d a b k) /\
  all_or_nothing xorb (aPerformsXOR w st d a b k).
Proof.
  intros w Hw st d a b la lb k Ra Rb aon.
  assert (P : forall f e r, f false false = false -> (exists st', r = Done st' /\ repr w (st' d) (s_zip f la lb) /\ (forall q, q <> d -> st' q = st q)) ->
    same e r /\ thrown e (fun st' => forall r, st' r = st r) -> aon f e).
  { intros f e r Hf (st' & E & R & O) [S T]. unfold aon. destruct e as [u [st1 k1]|[st1 k1]|f']; cbn [same thrown fst] in *.
    - rewrite E in S. injection S as <-. split; [|exact O].
      exists (s_zip f la lb). split; [exact R|]. split; [apply s_zip_length|]. intros i _. now apply (sbit_zip f).
    - exact T.
    - congruence. }
  repeat split.
  - apply (P andb _ (PerformsAND w st d a b)); [reflexivity | now apply (PerformsAND_repr w) | apply (aPerformsAND_all w)].
  - apply (P orb _ (PerformsOR w st d a b)); [reflexivity | now apply (PerformsOR_repr w) | apply (aPerformsOp_all w)].
  - apply (P xorb _ (PerformsXOR w st d a b)); [reflexivity | now apply (PerformsXOR_repr w) | apply (aPerformsOp_all w)].
Qed.
Print Assumptions C122_logic.
Theorem C122_not : forall w, width w -> forall st d a la k, repr w (st a) la ->
  match aPerformsNOT w st d a k with
  | Val _ (st', _) => repr w (st' d) (map negb la) /\ forall r, r <> d -> st' r = st r
  | Thrown (st', _) => forall r, st' r = st r
  | Bad _ => False
  end.
Proof.
  intros w Hw st d a la k R. destruct (aPerformsNOT_all w st d a k) as [S T]. destruct (PerformsNOT_repr w st d a la R) as (st' & E & R').
  destruct (aPerformsNOT w st d a k) as [u [st1 k1]|[st1 k1]|f]; cbn [same thrown fst] in *.
  - rewrite E in S. injection S as <-. exact R'.
  - exact T.
  - congruence.
Qed.
Print Assumptions C122_not.
Example C122_logic_nonvacuous : let st := fun r => if r =? 0 then mkB [170; 1]%N 9 else mkB [15]%N 5 in
  match aPerformsOR 8 st 1 1 0 0 with Thrown (st', _) => st' 1 = mkB [15]%N 5 | _ => False end /\
  match aPerformsOR 8 st 1 1 0 1 with Val _ (st', _) => st' 1 = mkB [175; 1]%N 9 | _ => False end /\
  match aPerformsNOT 8 st 0 1 0 with Val _ (st', _) => st' 0 = mkB [16]%N 5 | _ => False end.
Proof. vm_compute. auto. Qed.

(** AppendBits that is not interrupted behaves as if memory could not run out. *)
Theorem C122_append_uninterrupted : forall w, width w -> forall tw b v n k,
  match aAppendBits w tw b v n k with
  | Val _ (b', _) => AppendBits w tw b v n = Done b'
  | Bad f => AppendBits w tw b v n = Fault f
  | Thrown _ => True
  end.
Proof.
  intros w Hw tw b v n k. pose proof (aAppend_same w tw b v n k) as S. destruct (aAppendBits w tw b v n k) as [u [b' k']|s|f]; exact S.
Qed.
Print Assumptions C122_append_uninterrupted.

(** An interrupted AppendBits has already changed the size: reading the last bit is then out of the container. The old bits still read the same. *)
Theorem C122_append_refuted : forall w, width w -> forall tw b l v n k b' k', repr w b l ->
  aAppendBits w tw b v n k = Thrown (b', k') ->
  GetSize b' = length l + n /\ 0 < n /\
  (forall i, i < length l -> Test w b' i = Done (nth i l false)) /\
  (forall i, w * length (blocks b') <= i < GetSize b' -> Test w b' i = Fault FUB) /\
  Test w b' (GetSize b' - 1) = Fault FUB.
Proof.
  intros w Hw tw b l v n k b' k' R E. pose proof (aAppend_thrown w tw b l v n k R) as T. rewrite E in T. cbn in T.
  pose proof T as (C & B & S & D). unfold GetSize.
  assert (N0 : 0 < n). { destruct n; [rewrite Nat.add_0_r in B; lia | lia]. }
  split; [exact C|]. split; [exact N0|]. split; [|split].
  - intros i Hi. now apply (half_done_test w b' l n i T).
  - intros i Hi. rewrite C in Hi. now apply (half_done_test w b' l n i T).
  - rewrite C. apply (half_done_test w b' l n _ T). split; [|lia].
    destruct (nblocks_spec w (length l + n)) as [N1 N2]. pose proof (width_pos w Hw).
    assert (w * (length (blocks b') + 1) <= w * nblocks w (length l + n)) by (apply (wmul_mono w); lia). lia.
Qed.
Print Assumptions C122_append_refuted.
Example C122_append_nonvacuous : aAppendBits 8 32 (mkB [5]%N 3) 65535%N 16 1 = Thrown (mkB [253; 255]%N 19, 0) /\
  aAppendBits 8 32 (mkB [5]%N 3) 65535%N 16 2 = Val tt (mkB [253; 255; 7]%N 19, 0) /\
  Test 8 (mkB [253; 255]%N 19) 18 = Fault FUB.
Proof. vm_compute. auto. Qed.

(** The same for Write, which appends byte by byte: part of the bits may have been added. *)
Theorem C122_write_uninterrupted : forall w, width w -> forall mem b seq n k,
  match aWrite w mem b seq n k with
  | Val p (b', _) => Write w mem b seq n = Done (b', p)
  | Bad f => Write w mem b seq n = Fault f
  | Thrown _ => True
  end.
Proof.
  intros w Hw mem b seq n k. pose proof (aWrite_same w mem b seq n k) as S. destruct (aWrite w mem b seq n k) as [u [b' k']|s|f]; exact S.
Qed.
Print Assumptions C122_write_uninterrupted.
Theorem C122_write_refuted : forall w, width w -> forall mem b l seq n k b' k', repr w b l ->
  aWrite w mem b seq n k = Thrown (b', k') ->
  length l < GetSize b' <= length l + n /\ (forall i, i < length l -> Test w b' i = Done (nth i l false)) /\
  Test w b' (GetSize b' - 1) = Fault FUB.
Proof.
  intros w Hw mem b l seq n k b' k' R E. pose proof (aWrite_thrown w mem b l seq n k R) as T. rewrite E in T. cbn in T.
  destruct T as (m & M & T). pose proof T as (C & B & S & D). unfold GetSize.
  assert (N0 : 0 < m). { destruct m; [rewrite Nat.add_0_r in B; lia | lia]. }
  split; [lia|]. split.
  - intros i Hi. now apply (half_done_test w b' l m i T).
  - rewrite C. apply (half_done_test w b' l m _ T). split; [|lia].
    destruct (nblocks_spec w (length l + m)) as [N1 N2]. pose proof (width_pos w Hw).
    assert (w * (length (blocks b') + 1) <= w * nblocks w (length l + m)) by (apply (wmul_mono w); lia). lia.
Qed.
Print Assumptions C122_write_refuted.
Example C122_write_nonvacuous : aWrite 8 [1; 2; 3]%N (mkB [5]%N 3) (0, 0) 24 1 = Thrown (mkB [13; 16]%N 19, 0) /\
  aWrite 8 [1; 2; 3]%N (mkB [5]%N 3) (0, 4) 18 9 = Val (2, 6) (mkB [5; 129; 1]%N 21, 7).
Proof. vm_compute. auto. Qed.

(** Shrinking back to the size it had gives the bitset as it was before the failed AppendBits or Write; this needs no memory. *)
Theorem C122_recover : forall w, width w -> forall b l b' k' v k, repr w b l ->
  (exists tw x n j, aAppendBits w tw b x n j = Thrown (b', k')) \/ (exists mem seq n j, aWrite w mem b seq n j = Thrown (b', k')) ->
  aResize w b' (length l) v k = Val tt (b, k).
Proof.
  intros w Hw b l b' k' v k R [(tw & x & n & j & E)|(mem & seq & n & j & E)].
  - pose proof (aAppend_thrown w tw b l x n j R) as T. rewrite E in T. exact (half_done_shrink w b b' l n v k R T).
  - pose proof (aWrite_thrown w mem b l seq n j R) as T. rewrite E in T. destruct T as (m & _ & T). exact (half_done_shrink w b b' l m v k R T).
Qed.
Print Assumptions C122_recover.
Example C122_recover_nonvacuous : aResize 8 (mkB [253; 255]%N 19) 3 true 0 = Val tt (mkB [5]%N 3, 0).
Proof. reflexivity. Qed.
