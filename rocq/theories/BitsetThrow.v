(** The bitset when the container fails to get memory: what each call leaves. *)
From Verif Require Import Base CInt MathModel BitsetModel BitsetSpec BitsetBits BitsetProofs BitsetInt BitsetLogic BitsetThrowModel.
Open Scope nat_scope.

(** When nothing is thrown the call does what the model without exceptions says. *)
Definition same {S B} (e : eff (S * nat) B) (o : outcome S) : Prop :=
  match e with Val _ s => o = Done (fst s) | Bad f => o = Fault f | Thrown _ => True end.
Definition thrown {S B} (e : eff (S * nat) B) (P : S -> Prop) : Prop :=
  match e with Thrown s => P (fst s) | _ => True end.

Section T.
Variable w : nat.
Context {Hw : width w}.
Let Wpos : 0 < w := width_pos w Hw.

Lemma same_run {S} (e : outcome S) k : same (run_on e k) e.
Proof. destruct e; reflexivity. Qed.
Lemma thrown_run {S} (e : outcome S) k P : thrown (run_on e k) P.
Proof. destruct e; exact I. Qed.

Lemma a_resize_cases b n fill k :
  (exists k', a_resize b n fill k = Val tt (mkB (vresize (blocks b) n fill) (bitCount b), k')) \/
  (a_resize b n fill k = Thrown (b, 0) /\ k = 0 /\ length (blocks b) < n).
Proof.
  unfold a_resize. destruct (Nat.leb_spec n (length (blocks b))) as [H|H]; [left; eexists; reflexivity|].
  destruct k as [|k]; [right; auto | left; eexists; reflexivity].
Qed.

Lemma aResize_same b n v k : same (aResize w b n v k) (Resize w b n v).
Proof.
  unfold aResize, Resize. set (fill := if v then fullBitMask w else 0%N).
  destruct (a_resize_cases b (ComputeBlockCount w n) fill k) as [(k' & ->)|(-> & _)];
    destruct ((bitCount b <? n) && (0 <? GetBitIndex w (bitCount b)) && v); cbn [tbind]; try exact I.
  - destruct (length (blocks b) =? 0); [reflexivity|]. cbn [blocks bitCount].
    destruct (shl w (fullBitMask w) (GetBitIndex w (bitCount b))) as [m|f]; [|reflexivity]. cbn [bind].
    destruct (vget (vresize (blocks b) (ComputeBlockCount w n) fill) (length (blocks b) - 1)) as [x|f]; [|reflexivity]. cbn [bind].
    destruct (vset (vresize (blocks b) (ComputeBlockCount w n) fill) (length (blocks b) - 1) (N.lor x m)) as [l|f]; [|reflexivity].
    cbn [bind run_on tbind blocks]. apply same_run.
  - cbn [bind blocks]. apply same_run.
Qed.

Lemma aResize_thrown b n v k : match aResize w b n v k with
  | Thrown s => s = (b, 0) /\ k = 0 /\ length (blocks b) < nblocks w n
  | _ => length (blocks b) < nblocks w n -> k <> 0
  end.
Proof.
  unfold aResize. rewrite (ComputeBlockCount_nblocks w). set (fill := if v then fullBitMask w else 0%N).
  assert (R : forall e : outcome bitset, forall k', (length (blocks b) < nblocks w n -> k <> 0) ->
    match run_on e k' with Thrown s => s = (b, 0) /\ k = 0 /\ length (blocks b) < nblocks w n | _ => length (blocks b) < nblocks w n -> k <> 0 end).
  { intros [s|f] k' Q; exact Q. }
  unfold a_resize. destruct (Nat.leb_spec (nblocks w n) (length (blocks b))) as [Q|Q].
  - destruct ((bitCount b <? n) && (0 <? GetBitIndex w (bitCount b)) && v); cbn [tbind].
    + match goal with |- context [run_on ?e ?k'] => destruct e as [s|f] end; cbn [run_on tbind]; [apply R; lia | lia].
    + apply R; lia.
  - destruct k as [|k].
    + destruct ((bitCount b <? n) && (0 <? GetBitIndex w (bitCount b)) && v); cbn [tbind]; auto.
    + destruct ((bitCount b <? n) && (0 <? GetBitIndex w (bitCount b)) && v); cbn [tbind].
      * match goal with |- context [run_on ?e ?k'] => destruct e as [s|f] end; cbn [run_on tbind]; [apply R; lia | lia].
      * apply R; lia.
Qed.

Lemma aUnboundedSet_same b i v k : same (aUnboundedSet w b i v k) (UnboundedSet w b i v).
Proof.
  unfold aUnboundedSet, UnboundedSet. destruct (i <? bitCount b); [apply same_run|]. destruct v; [|reflexivity].
  pose proof (aResize_same b (i + 1) false k) as S. destruct (aResize w b (i + 1) false k) as [u [b' k']|s|f]; cbn [same fst tbind] in *; try exact I.
  - rewrite S. cbn [bind]. apply same_run.
  - rewrite S. reflexivity.
Qed.

Lemma aUnboundedSet_thrown b i v k : thrown (aUnboundedSet w b i v k) (eq b).
Proof.
  unfold aUnboundedSet. destruct (i <? bitCount b); [apply thrown_run|]. destruct v; [|exact I].
  pose proof (aResize_thrown b (i + 1) false k) as S. destruct (aResize w b (i + 1) false k) as [u [b' k']|s|f]; cbn [tbind].
  - apply thrown_run.
  - cbn. now destruct S as (-> & _).
  - exact I.
Qed.

(** ** The logical operators *)
Lemma sput_same (st : nat -> bitset) d r : sput st d (st d) r = st r.
Proof. unfold sput. destruct (Nat.eqb_spec r d) as [->|]; reflexivity. Qed.

Lemma sresize_cases st d n k :
  (exists k', a_sresize st d n k = Val tt (sput st d (mkB (vresize (blocks (st d)) n 0%N) (bitCount (st d))), k')) \/
  (a_sresize st d n k = Thrown (sput st d (st d), 0) /\ k = 0 /\ length (blocks (st d)) < n).
Proof.
  unfold a_sresize. destruct (a_resize_cases (st d) n 0%N k) as [(k' & ->)|(-> & H)]; [left; eexists; reflexivity | right; auto].
Qed.

Lemma aPerformsAND_all st d a b k : same (aPerformsAND w st d a b k) (PerformsAND w st d a b) /\
  thrown (aPerformsAND w st d a b k) (fun st' => forall r, st' r = st r).
Proof.
  unfold aPerformsAND, PerformsAND. cbv zeta.
  destruct (sresize_cases st d (Nat.max (GetBlockCount (st a)) (GetBlockCount (st b))) k) as [(k' & ->)|(-> & _)]; cbn [tbind].
  - split; [apply same_run | apply thrown_run].
  - split; [exact I|]. cbn. apply sput_same.
Qed.
Lemma aPerformsNOT_all st d a k : same (aPerformsNOT w st d a k) (PerformsNOT w st d a) /\
  thrown (aPerformsNOT w st d a k) (fun st' => forall r, st' r = st r).
Proof.
  unfold aPerformsNOT, PerformsNOT. cbv zeta.
  destruct (sresize_cases st d (GetBlockCount (st a)) k) as [(k' & ->)|(-> & _)]; cbn [tbind].
  - split; [apply same_run | apply thrown_run].
  - split; [exact I|]. cbn. apply sput_same.
Qed.
Lemma aPerformsOp_all op st d a b k : same (aPerformsOp w op st d a b k) (PerformsOp w op st d a b) /\
  thrown (aPerformsOp w op st d a b k) (fun st' => forall r, st' r = st r).
Proof.
  unfold aPerformsOp, PerformsOp. cbv zeta.
  set (g := if GetSize (st b) <? GetSize (st a) then a else b).
  destruct (sresize_cases st d (GetBlockCount (st g)) k) as [(k' & ->)|(-> & _)]; cbn [tbind].
  - split; [apply same_run | apply thrown_run].
  - split; [exact I|]. cbn. apply sput_same.
Qed.

(** ** AppendBits *)
Lemma a_pushes_same tw m : forall b bits n k,
  match a_pushes w tw m b bits n k, foreach (range 0 m) (fun '(l, bits, n) _ =>
        Done (l ++ [trunc w bits], (if w <? tw then N.shiftr bits (N.of_nat w) else 0%N), n - w)) (blocks b, bits, n) with
  | Val (bits', n') (b', _), r => r = Done (blocks b', bits', n') /\ bitCount b' = bitCount b /\ length (blocks b') = length (blocks b) + m
  | Thrown (b', _), _ => bitCount b' = bitCount b /\ length (blocks b) <= length (blocks b') < length (blocks b) + m
  | Bad _, _ => False
  end.
Proof.
  assert (G : forall m s b bits n k,
    match a_pushes w tw m b bits n k, foreach (seq s m) (fun '(l, bits, n) _ =>
        Done (l ++ [trunc w bits], (if w <? tw then N.shiftr bits (N.of_nat w) else 0%N), n - w)) (blocks b, bits, n) with
    | Val (bits', n') (b', _), r => r = Done (blocks b', bits', n') /\ bitCount b' = bitCount b /\ length (blocks b') = length (blocks b) + m
    | Thrown (b', _), _ => bitCount b' = bitCount b /\ length (blocks b) <= length (blocks b') < length (blocks b) + m
    | Bad _, _ => False
    end).
  { clear m. induction m as [|m IH]; intros s b bits n k.
    - cbn. repeat split; lia.
    - cbn [a_pushes seq foreach]. unfold a_push. destruct k as [|k]; cbn [tbind bind].
      + split; [reflexivity | lia].
      + specialize (IH (S s) (mkB (blocks b ++ [trunc w bits]) (bitCount b)) (if w <? tw then N.shiftr bits (N.of_nat w) else 0%N) (n - w) k).
        cbn [blocks bitCount] in IH. rewrite app_length in IH. cbn [length] in IH.
        destruct (a_pushes w tw m _ _ _ k) as [[bits' n'] [b' k']|[b' k']|f].
        * destruct IH as (A & B & C). split; [exact A|]. split; [exact B | lia].
        * destruct IH as (A & B). split; [exact A | lia].
        * exact IH. }
  intros b bits n k. unfold range. rewrite Nat.sub_0_r. exact (G m 0 b bits n k).
Qed.

Lemma a_pushes_keep tw m : forall b bits n k s, small w (blocks b) ->
  (match a_pushes w tw m b bits n k with Val _ s' => s' = s | Thrown s' => s' = s | Bad _ => False end) ->
  small w (blocks (fst s)) /\ forall i, i < w * length (blocks b) -> lbit w (blocks (fst s)) i = lbit w (blocks b) i.
Proof.
  induction m as [|m IH]; intros b bits n k s HS E.
  - cbn in E. subst s. auto.
  - cbn [a_pushes] in E. unfold a_push in E. destruct k as [|k]; cbn [tbind] in E.
    + subst s. auto.
    + specialize (IH (mkB (blocks b ++ [trunc w bits]) (bitCount b)) _ _ _ _ (small_app w _ _ HS (trunc_lt w bits)) E). cbn [blocks] in IH. destruct IH as (A & B). split; [exact A|].
      intros i Hi. rewrite B by (rewrite app_length; cbn [length]; nia). rewrite (lbit_snoc w).
      destruct (Nat.ltb_spec i (w * length (blocks b))); [reflexivity | lia].
Qed.

(** The first part of AppendBits. *)
Definition first_part tw (b0 : bitset) bits0 n0 : outcome (list N * N * nat) :=
  let bitShift := bitCount b0 mod w in
  if negb (bitShift =? 0) then
    let remainingBits := w - bitShift in
    x <- vget (blocks b0) (length (blocks b0) - 1) ;;
    s <- shl w (trunc w bits0) bitShift ;;
    l <- vset (blocks b0) (length (blocks b0) - 1) (N.lor x s) ;;
    Done (l, (if remainingBits <? tw then N.shiftr bits0 (N.of_nat remainingBits) else 0%N), n0 - Nat.min remainingBits n0)
  else Done (blocks b0, bits0, n0).

Lemma aAppend_eq tw b0 bits0 n0 k : aAppendBits w tw b0 bits0 n0 k =
  match first_part tw b0 bits0 n0 with
  | Fault f => Bad f
  | Done (l, bits, n) =>
    if 0 <? n then
      tbind (a_pushes w tw (ComputeBlockCount w n - 1) (mkB l (bitCount b0 + n0)) bits n k) (fun '(bits, n) '(b, k) =>
        match shlp w 1 n with Fault f => Bad f | Done one => a_push b (trunc w (N.land bits (one - 1))) k end)
    else Val tt (mkB l (bitCount b0 + n0), k)
  end.
Proof.
  unfold aAppendBits, first_part. cbv zeta. cbn [blocks bitCount]. destruct (negb (bitCount b0 mod w =? 0)); [|reflexivity].
  destruct (vget (blocks b0) (length (blocks b0) - 1)) as [x|f]; [|reflexivity]. cbn [bind].
  destruct (shl w (trunc w bits0) (bitCount b0 mod w)) as [s|f]; [|reflexivity]. cbn [bind].
  destruct (vset (blocks b0) (length (blocks b0) - 1) (N.lor x s)) as [l|f]; reflexivity.
Qed.

Lemma aAppend_same tw b bits0 n0 k : same (aAppendBits w tw b bits0 n0 k) (AppendBits w tw b bits0 n0).
Proof.
  rewrite aAppend_eq. unfold AppendBits. fold (first_part tw b bits0 n0).
  destruct (first_part tw b bits0 n0) as [[[l bits] n]|f]; [|reflexivity]. cbn [bind].
  destruct (0 <? n); [|reflexivity]. cbv zeta.
  pose proof (a_pushes_same tw (ComputeBlockCount w n - 1) (mkB l (bitCount b + n0)) bits n k) as P. cbn [blocks bitCount] in P.
  destruct (a_pushes w tw (ComputeBlockCount w n - 1) (mkB l (bitCount b + n0)) bits n k) as [[bits' n'] [b' k']|[b' k']|f]; cbn [tbind].
  - destruct P as (P & Q & _). rewrite P. cbn [bind]. destruct (shlp w 1 n') as [one|f]; [|reflexivity]. cbn [bind].
    unfold a_push. destruct k' as [|k']; [exact I|]. cbn. now rewrite Q.
  - exact I.
  - destruct P.
Qed.

(** As many blocks as the size asks for; nothing is said of the bits past the end. *)
Definition fits (b : bitset) : Prop := length (blocks b) = nblocks w (bitCount b) /\ small w (blocks b).

Lemma first_part_done tw b bits0 n0 : fits b -> exists l1 bits n, first_part tw b bits0 n0 = Done (l1, bits, n) /\
  length l1 = length (blocks b) /\ small w l1 /\ (forall i, i < bitCount b -> lbit w l1 i = lbit w (blocks b) i) /\
  nblocks w (bitCount b + n0) = length (blocks b) + nblocks w n.
Proof.
  intros (HL & HS). unfold first_part. set (N := bitCount b) in *. destruct (divmod_w w N) as [D1 D2].
  destruct (Nat.eqb_spec (N mod w) 0) as [Z|Z]; cbn [negb].
  - exists (blocks b), bits0, n0. split; [reflexivity|]. split; [reflexivity|]. split; [exact HS|]. split; [auto|].
    rewrite HL. unfold nblocks. rewrite D1, Z, Nat.add_0_r.
    replace (w * (N / w) + n0 + w - 1) with (n0 + w - 1 + (N / w) * w) by lia.
    rewrite Nat.div_add by lia. replace (w * (N / w) + w - 1) with (w * (N / w) + (w - 1)) by lia.
    rewrite (div_unique_w w) by lia. lia.
  - assert (P : 0 < length (blocks b)).
    { rewrite HL. destruct (Nat.eq_dec (nblocks w N) 0) as [E|E]; [|lia]. apply (proj1 (nblocks_0 w _)) in E. rewrite E, Nat.mod_0_l in Z; lia. }
    rewrite (vget_done _ _ 0%N) by lia. cbn [bind]. rewrite (shl_done w) by lia. cbn [bind]. rewrite vset_done by lia. cbn [bind].
    eexists _, _, _. split; [reflexivity|]. split; [now rewrite upd_length|]. split.
    { apply Forall_upd; [exact HS|]. apply lor_lt; [now apply (small_nth w) | apply (trunc_lt w)]. }
    pose proof (nblocks_cases w N) as NC. rewrite <- HL in NC. split.
    + intros i Hi. rewrite (lbit_upd w) by lia. destruct (divmod_w w i) as [I1 I2].
      destruct (Nat.eqb_spec (i / w) (length (blocks b) - 1)) as [E|E]; [|reflexivity].
      rewrite N.lor_spec, trunc_bits, shiftl_bits. unfold lbit. rewrite E.
      assert (N / w = length (blocks b) - 1) by lia.
      assert (w * (N / w) = w * (i / w)) by congruence.
      destruct (N.leb_spec (N.of_nat (N mod w)) (N.of_nat (i mod w))); [lia|]. cbn [andb]. now rewrite andb_false_r, orb_false_r.
    + destruct NC as [(A & _)|(A & B & C)]; [lia|].
      destruct (Nat.le_gt_cases n0 (w - N mod w)) as [Q|Q].
      * rewrite Nat.min_r by lia. rewrite Nat.sub_diag. rewrite (proj2 (nblocks_0 w 0) eq_refl), Nat.add_0_r. rewrite HL.
        destruct (nblocks_spec w N) as [A1 A2]. destruct (nblocks_spec w (N + n0)) as [A3 A4].
        rewrite HL in C. destruct (Nat.eq_dec (nblocks w (N + n0)) (nblocks w N)) as [E|E]; [exact E|]. exfalso.
        assert (nblocks w N <= nblocks w (N + n0)) by (apply (nblocks_le w); lia).
        assert (w * (nblocks w N + 1) <= w * nblocks w (N + n0)) by (apply (wmul_mono w); lia).
        nia.
      * rewrite Nat.min_l by lia. unfold nblocks at 1. rewrite HL in *.
        replace (N + n0 + w - 1) with (n0 - (w - N mod w) + w - 1 + nblocks w N * w) by nia.
        rewrite Nat.div_add by lia. unfold nblocks. lia.
Qed.

(** A call that appends [n0] bits: the size grows, what was there stays, and when it is cut short blocks are missing. *)
Lemma aAppend_cases tw b bits0 n0 k : fits b ->
  match aAppendBits w tw b bits0 n0 k with
  | Val _ (b', _) => fits b' /\ bitCount b' = bitCount b + n0 /\ forall i, i < bitCount b -> lbit w (blocks b') i = lbit w (blocks b) i
  | Thrown (b', _) => bitCount b' = bitCount b + n0 /\ length (blocks b) <= length (blocks b') < nblocks w (bitCount b') /\ small w (blocks b') /\
      forall i, i < bitCount b -> lbit w (blocks b') i = lbit w (blocks b) i
  | Bad _ => True
  end.
Proof.
  intros R. pose proof R as (HL & HS). destruct (first_part_done tw b bits0 n0 R) as (l1 & bits & n & F & L1 & S1 & B1 & N1).
  rewrite aAppend_eq, F. destruct (nblocks_spec w (bitCount b)) as [A1 A2]. destruct (Nat.ltb_spec 0 n) as [Hn|Hn].
  - rewrite (ComputeBlockCount_nblocks w).
    assert (NP : 0 < nblocks w n). { destruct (Nat.eq_dec (nblocks w n) 0) as [E|E]; [|lia]. apply (proj1 (nblocks_0 w _)) in E. lia. }
    pose proof (a_pushes_same tw (nblocks w n - 1) (mkB l1 (bitCount b + n0)) bits n k) as P.
    pose proof (a_pushes_keep tw (nblocks w n - 1) (mkB l1 (bitCount b + n0)) bits n k) as K. cbn [blocks bitCount] in P, K.
    rewrite L1 in P, K. 
    destruct (a_pushes w tw (nblocks w n - 1) (mkB l1 (bitCount b + n0)) bits n k) as [[bits' n'] [b' k']|[b' k']|f]; cbn [tbind].
    + destruct P as (_ & P1 & P2). destruct (K _ S1 eq_refl) as (K1 & K2). cbn [fst] in *.
      assert (KB : forall i, i < bitCount b -> lbit w (blocks b') i = lbit w (blocks b) i).
      { intros i Hi. rewrite K2 by (rewrite HL; lia). now apply B1. }
      destruct (shlp w 1 n') as [one|f]; [|exact I]. unfold a_push. destruct k' as [|k'].
      * rewrite P1. split; [reflexivity|]. split; [lia|]. now split.
      * cbn [blocks bitCount]. split; [|split; [exact P1|]].
        -- split; cbn [blocks bitCount]; [rewrite app_length; cbn [length]; rewrite P1; lia|]. apply (small_app w); [exact K1 | apply (trunc_lt w)].
        -- intros i Hi. rewrite (lbit_snoc w). destruct (Nat.ltb_spec i (w * length (blocks b'))); [now apply KB|]. exfalso. rewrite P2, HL in *. nia.
    + destruct P as (P1 & P2). destruct (K _ S1 eq_refl) as (K1 & K2). cbn [fst] in *. rewrite P1.
      split; [reflexivity|]. split; [lia|]. split; [exact K1|]. intros i Hi. rewrite K2 by (rewrite HL; lia). now apply B1.
    + exact I.
  - cbn [blocks bitCount]. assert (n = 0) by lia. subst n. rewrite (proj2 (nblocks_0 w 0) eq_refl), Nat.add_0_r in N1.
    split; [|split; [reflexivity | exact B1]]. split; cbn [blocks bitCount]; [congruence | exact S1].
Qed.

(** What a failed append leaves: a wrong size, too few blocks, and the old bits. *)
Definition half_done (b : bitset) (l : list bool) (n : nat) : Prop :=
  bitCount b = length l + n /\ nblocks w (length l) <= length (blocks b) < nblocks w (length l + n) /\ small w (blocks b) /\
  forall i, i < length l -> lbit w (blocks b) i = sbit l i.

Lemma repr_fits b l : repr w b l -> fits b.
Proof. intros (HC & HL & HS & HB). split; [congruence | exact HS]. Qed.

Lemma aAppend_thrown tw b l bits0 n0 k : repr w b l -> thrown (aAppendBits w tw b bits0 n0 k) (fun b' => half_done b' l n0).
Proof.
  intros R. pose proof R as (HC & HL & HS & HB). pose proof (aAppend_cases tw b bits0 n0 k (repr_fits b l R)) as C.
  destruct (aAppendBits w tw b bits0 n0 k) as [u s|[b' k']|f]; try exact I. destruct C as (C1 & C2 & C3 & C4). cbn. rewrite HC in *.
  split; [exact C1|]. split; [rewrite <- HL, <- C1; exact C2|]. split; [exact C3|]. intros i Hi. rewrite C4 by exact Hi. apply HB.
Qed.

(** ** Write *)
Lemma a_bytes_cases mem ps : forall b n k, fits b ->
  match a_bytes w mem ps b n k with
  | Thrown (b', _) => exists m, m <= n /\ bitCount b' = bitCount b + m /\ length (blocks b) <= length (blocks b') < nblocks w (bitCount b') /\
      small w (blocks b') /\ forall i, i < bitCount b -> lbit w (blocks b') i = lbit w (blocks b) i
  | _ => True
  end.
Proof.
  induction ps as [|p ps IH]; intros b n k F; cbn [a_bytes]; [exact I|].
  destruct (vget mem p) as [byte|f]; [|exact I]. pose proof (aAppend_cases 8 b byte (Nat.min n 8) k F) as C.
  destruct (aAppendBits w 8 b byte (Nat.min n 8) k) as [u [b1 k1]|[b1 k1]|f]; cbn [tbind].
  - destruct C as (F1 & C1 & C2). specialize (IH b1 (n - Nat.min n 8) k1 F1).
    destruct (a_bytes w mem ps b1 (n - Nat.min n 8) k1) as [u' s'|[b' k']|f]; try exact I.
    destruct IH as (m & M & I1 & I2 & I3 & I4). exists (Nat.min n 8 + m). split; [lia|]. split; [lia|]. split; [|split; [exact I3|]].
    + destruct F as (F & _). destruct F1 as (F1 & _). assert (length (blocks b) <= length (blocks b1)); [|lia].
      rewrite F, F1. apply (nblocks_le w). lia.
    + intros i Hi. rewrite I4 by lia. now apply C2.
  - destruct C as (C1 & C2 & C3 & C4). exists (Nat.min n 8). split; [lia|]. auto.
  - exact I.
Qed.

Lemma aWrite_thrown mem b l seq n0 k : repr w b l -> thrown (aWrite w mem b seq n0 k) (fun b' => exists n, n <= n0 /\ half_done b' l n).
Proof.
  intros R. pose proof R as (HC & HL & HS & HB). pose proof (repr_fits b l R) as F. destruct seq as [ptr second]. unfold aWrite, tassert.
  destruct (second <? 8); [|exact I].
  assert (FIN : forall b' m, m <= n0 -> bitCount b' = bitCount b + m -> length (blocks b) <= length (blocks b') < nblocks w (bitCount b') ->
    small w (blocks b') -> (forall i, i < bitCount b -> lbit w (blocks b') i = lbit w (blocks b) i) -> exists n, n <= n0 /\ half_done b' l n).
  { intros b' m M A1 A2 A3 A4. rewrite HC in *. exists m. split; [exact M|]. split; [exact A1|]. split; [rewrite <- HL, <- A1; exact A2|].
    split; [exact A3|]. intros i Hi. rewrite A4 by exact Hi. apply HB. }
  cbv zeta. set (e := ptr + (if second + n0 =? 0 then 0 else (second + n0 - 1) / 8)).
  destruct (second =? 0); cbn [negb tbind].
  - pose proof (a_bytes_cases mem (range ptr (e + 1)) b n0 k F) as C.
    destruct (a_bytes w mem (range ptr (e + 1)) b n0 k) as [u s|[b' k']|f]; try exact I. destruct C as (m & M & A1 & A2 & A3 & A4). cbn. now apply (FIN b' m).
  - match goal with |- context [bind (vget mem ptr) ?g] => destruct (bind (vget mem ptr) g) as [v|f] end; [|exact I].
    set (rc := Nat.min n0 (8 - second)). pose proof (aAppend_cases (pw w) b v rc k F) as C.
    destruct (aAppendBits w (pw w) b v rc k) as [u [b1 k1]|[b1 k1]|f]; cbn [tbind].
    + destruct C as (F1 & C1 & C2). pose proof (a_bytes_cases mem (range (ptr + 1) (e + 1)) b1 (n0 - rc) k1 F1) as D.
      destruct (a_bytes w mem (range (ptr + 1) (e + 1)) b1 (n0 - rc) k1) as [u' s|[b' k']|f]; try exact I.
      destruct D as (m & M & A1 & A2 & A3 & A4). cbn. apply (FIN b' (rc + m)); [unfold rc in *; lia | lia | | exact A3 |].
      * destruct F as (F & _). destruct F1 as (F1 & _). assert (length (blocks b) <= length (blocks b1)); [|lia].
        rewrite F, F1. apply (nblocks_le w). lia.
      * intros i Hi. rewrite A4 by lia. now apply C2.
    + destruct C as (C1 & C2 & C3 & C4). cbn. apply (FIN b1 rc); auto. unfold rc; lia.
    + exact I.
Qed.

Lemma a_bytes_same mem ps : forall b n k,
  match a_bytes w mem ps b n k, foreach ps (fun '(b, n) p =>
      let bitToRead := Nat.min n 8 in byte <- vget mem p ;; b' <- AppendBits w 8 b byte bitToRead ;; Done (b', n - bitToRead)) (b, n) with
  | Val _ (b', _), r => exists n', r = Done (b', n')
  | Bad f, r => r = Fault f
  | Thrown _, _ => True
  end.
Proof.
  induction ps as [|p ps IH]; intros b n k; cbn [a_bytes foreach]; [eauto|]. cbv zeta.
  destruct (vget mem p) as [byte|f]; [|reflexivity]. cbn [bind]. pose proof (aAppend_same 8 b byte (Nat.min n 8) k) as C.
  destruct (aAppendBits w 8 b byte (Nat.min n 8) k) as [u [b1 k1]|[b1 k1]|f]; cbn [tbind same fst] in *; [|exact I|rewrite C; reflexivity].
  rewrite C. cbn [bind]. apply IH.
Qed.

Lemma aWrite_same mem b seq n0 k : match aWrite w mem b seq n0 k with
  | Val p s => Write w mem b seq n0 = Done (fst s, p)
  | Bad f => Write w mem b seq n0 = Fault f
  | Thrown _ => True
  end.
Proof.
  destruct seq as [ptr second]. unfold aWrite, Write, tassert. destruct (second <? 8); [|reflexivity]. cbn [assert bind]. cbv zeta.
  set (e := ptr + (if second + n0 =? 0 then 0 else (second + n0 - 1) / 8)).
  destruct (second =? 0); cbn [negb tbind bind].
  - pose proof (a_bytes_same mem (range ptr (e + 1)) b n0 k) as C. cbv zeta in C.
    destruct (a_bytes w mem (range ptr (e + 1)) b n0 k) as [u [b' k']|s|f]; cbn [tbind]; [|exact I|now rewrite C].
    destruct C as (n' & C). rewrite C. reflexivity.
  - destruct (vget mem ptr) as [byte|f]; [|reflexivity]. cbn [bind].
    match goal with |- context [shr w ?x second] => destruct (shr w x second) as [v|f] end; [|reflexivity]. cbn [bind].
    set (rc := Nat.min n0 (8 - second)). pose proof (aAppend_same (pw w) b v rc k) as A.
    destruct (aAppendBits w (pw w) b v rc k) as [u [b1 k1]|[b1 k1]|f]; cbn [tbind same fst] in *; [|exact I|rewrite A; reflexivity].
    rewrite A. cbn [bind].
    pose proof (a_bytes_same mem (range (ptr + 1) (e + 1)) b1 (n0 - rc) k1) as C. cbv zeta in C.
    destruct (a_bytes w mem (range (ptr + 1) (e + 1)) b1 (n0 - rc) k1) as [u' [b' k']|s|f]; cbn [tbind]; [|exact I|now rewrite C].
    destruct C as (n' & C). rewrite C. reflexivity.
Qed.

(** Shrinking back to the old size gives the old bitset. *)
Lemma shrink_back b b' l v k : repr w b l -> length l <= bitCount b' -> nblocks w (length l) <= length (blocks b') -> small w (blocks b') ->
  (forall i, i < length l -> lbit w (blocks b') i = sbit l i) ->
  aResize w b' (length l) v k = Val tt (b, k).
Proof.
  intros R HC HL HS HB. unfold aResize. destruct (Nat.ltb_spec (bitCount b') (length l)); [lia|]. cbn [andb].
  rewrite (ComputeBlockCount_nblocks w). unfold a_resize. destruct (Nat.leb_spec (nblocks w (length l)) (length (blocks b'))); [|lia].
  cbn [tbind blocks]. set (fill := if v then fullBitMask w else 0%N).
  assert (HF : (fill < 2 ^ N.of_nat w)%N) by (unfold fill; destruct v; [apply (full_lt w) | apply (zero_lt w)]).
  destruct (ResetExtraBits_repr w (vresize (blocks b') (nblocks w (length l)) fill) (length l) l eq_refl) as (b2 & E & R2).
  - apply vresize_length.
  - now apply small_resize.
  - intros i Hi. rewrite (lbit_resize w). pose proof (div_lt_nblocks w i (length l) Hi).
    destruct (Nat.ltb_spec (i / w) (nblocks w (length l))); [|lia]. destruct (Nat.ltb_spec (i / w) (length (blocks b'))); [|lia]. now apply HB.
  - rewrite E. cbn [run_on]. now rewrite (repr_inj w b b2 l R R2).
Qed.

Lemma half_done_shrink b b' l n v k : repr w b l -> half_done b' l n -> aResize w b' (length l) v k = Val tt (b, k).
Proof. intros R (A & B & C & D). apply shrink_back with (l := l); auto; lia. Qed.

Lemma half_done_test b l n i : half_done b l n ->
  (i < length l -> Test w b i = Done (sbit l i)) /\
  (w * length (blocks b) <= i < length l + n -> Test w b i = Fault FUB).
Proof.
  intros (A & B & C & D). split; intros Hi.
  - unfold Test, GetBlockIndex. rewrite A. destruct (Nat.ltb_spec i (length l + n)); [|lia]. cbn [assert bind].
    pose proof (div_lt_nblocks w i (length l) Hi).
    rewrite (vget_done _ _ 0%N) by lia. cbn [bind]. rewrite (mask_done w). cbn [bind]. f_equal. rewrite land_mask_testbit. now apply D.
  - unfold Test, GetBlockIndex. rewrite A. destruct (Nat.ltb_spec i (length l + n)); [|lia]. cbn [assert bind].
    assert (Q : length (blocks b) <= i / w). { apply Nat.div_le_lower_bound; lia. }
    unfold vget. rewrite (proj2 (nth_error_None _ _) Q). reflexivity.
Qed.
End T.
