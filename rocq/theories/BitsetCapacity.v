(** The storage of bitsets: when it changes, what is allocated. *)
From Verif Require Import Base CInt MathModel BitsetModel BitsetSpec BitsetBits BitsetProofs BitsetInt BitsetLogic BitsetHistory BitsetThrowModel BitsetThrow BitsetCapacityModel.
Open Scope nat_scope.

(** From storage [s] and [k] allocations to [s'] and [k'], with [n] blocks at the end. *)
Definition kept (s : storage) (k n : nat) (s' : storage) (k' : nat) : Prop :=
  n <= room s' /\ k <= k' /\ (n <= room s -> s' = s /\ k' = k) /\ (room s < n -> k <= home s' < k').

Definition sim (e : outcome one) (o : outcome bitset) (s : storage) (k : nat) : Prop :=
  match o with
  | Done b => exists s' k', e = Done (b, s', k') /\ kept s k (length (blocks b)) s' k'
  | Fault f => e = Fault f
  end.

Lemma kept_refl s k n : n <= room s -> kept s k n s k.
Proof. unfold kept. intuition lia. Qed.

Lemma kept_trans s k n s1 k1 n2 s2 k2 : kept s k n s1 k1 -> n <= n2 -> kept s1 k1 n2 s2 k2 -> kept s k n2 s2 k2.
Proof.
  intros (A1 & A2 & A3 & A4) H (B1 & B2 & B3 & B4). unfold kept. split; [exact B1|]. split; [lia|]. split.
  - intros Q. destruct (A3 ltac:(lia)) as [-> ->]. now apply B3.
  - intros Q. destruct (Nat.le_gt_cases n (room s)) as [C|C].
    + destruct (A3 C) as [-> ->]. now apply B4.
    + specialize (A4 C). destruct (Nat.le_gt_cases n2 (room s1)) as [D|D].
      * destruct (B3 D) as [-> ->]. lia.
      * specialize (B4 D). lia.
Qed.

Section P.
Variables (grow : nat -> nat -> nat) (w : nat).
Hypothesis G : forall k n, n <= grow k n.
Context {Hw : width w}.
Let Wpos : 0 < w := width_pos w Hw.

Lemma ensure_kept s k n : kept s k n (fst (ensure grow s k n)) (snd (ensure grow s k n)).
Proof.
  unfold ensure, kept. specialize (G k n). destruct (Nat.leb_spec n (room s)); cbn [fst snd room home]; intuition lia.
Qed.

Lemma in_place_sim b s k f : (forall b', f b = Done b' -> length (blocks b') <= room s) -> sim (in_place (b, s, k) f) (f b) s k.
Proof.
  intros H. unfold sim, in_place. destruct (f b) as [b'|x]; [|reflexivity]. cbn [bind]. exists s, k. split; [reflexivity|]. apply kept_refl. now apply H.
Qed.

Lemma sim_bind e o F H s k : sim e o s k ->
  (forall b' s' k', o = Done b' -> length (blocks b') <= room s' -> sim (F (b', s', k')) (H b') s' k' /\ forall b2, H b' = Done b2 -> length (blocks b') <= length (blocks b2)) ->
  sim (bind e F) (bind o H) s k.
Proof.
  unfold sim. intros S Q. destruct o as [b|f]; [|now rewrite S]. destruct S as (s' & k' & -> & K). cbn [bind].
  pose proof K as (K1 & _). destruct (Q b s' k' eq_refl K1) as [A B]. destruct (H b) as [b2|f]; [|exact A].
  destruct A as (s2 & k2 & -> & K2). exists s2, k2. split; [reflexivity|]. eapply kept_trans; [exact K | now apply B | exact K2].
Qed.

Lemma vset_len {A} (l : list A) i x l' : vset l i x = Done l' -> length l' = length l.
Proof. unfold vset. destruct (i <? length l); [|discriminate]. intros E. injection E as <-. apply upd_length. Qed.

Lemma reset_len b b' : ResetExtraBits w b = Done b' -> length (blocks b') = length (blocks b).
Proof.
  unfold ResetExtraBits. destruct (blocks b) as [|x l] eqn:E; [intros Q; injection Q as <-; now rewrite E|].
  destruct (GetLastBlockMask w b) as [m|]; cbn [bind]; [|discriminate].
  destruct (vget _ _) as [y|]; cbn [bind]; [|discriminate].
  destruct (vset _ _ _) as [l'|] eqn:V; cbn [bind]; [|discriminate]. intros Q. injection Q as <-. cbn [blocks].
  now rewrite (vset_len _ _ _ _ V).
Qed.

Lemma set_len b i v b' : Set_ w b i v = Done b' -> length (blocks b') = length (blocks b).
Proof.
  unfold Set_. destruct (assert _) as [[]|]; cbn [bind]; [|discriminate].
  destruct (vget _ _) as [y|]; cbn [bind]; [|discriminate]. destruct (shl _ _ _) as [m|]; cbn [bind]; [|discriminate].
  destruct (vset _ _ _) as [l'|] eqn:V; cbn [bind]; [|discriminate]. intros Q. injection Q as <-. cbn [blocks]. apply (vset_len _ _ _ _ V).
Qed.

Lemma resize_len b n v b' : Resize w b n v = Done b' -> length (blocks b') = nblocks w n.
Proof.
  unfold Resize. rewrite (ComputeBlockCount_nblocks w). set (c := (bitCount b <? n) && _ && v). destruct c.
  - destruct (length (blocks b) =? 0); [discriminate|]. cbv zeta.
    destruct (shl _ _ _) as [m|]; cbn [bind]; [|discriminate]. destruct (vget _ _) as [x|]; cbn [bind]; [|discriminate].
    destruct (vset _ _ _) as [l|] eqn:V; cbn [bind]; [|discriminate]. intros Q. rewrite (reset_len _ _ Q). cbn [blocks].
    rewrite (vset_len _ _ _ _ V). apply vresize_length.
  - cbn [bind]. intros Q. rewrite (reset_len _ _ Q). cbn [blocks]. apply vresize_length.
Qed.

Lemma resize_sim b s k n v : sim (cResize grow w (b, s, k) n v) (Resize w b n v) s k.
Proof.
  pose proof (resize_len b n v) as L. unfold cResize, Resize in *. cbn [fst]. rewrite (ComputeBlockCount_nblocks w) in *.
  pose proof (ensure_kept s k (nblocks w n)) as K. set (c := (bitCount b <? n) && _ && v) in *. set (fill := if v then _ else _) in *. destruct c.
  - destruct (length (blocks b) =? 0); [reflexivity|]. cbv zeta in *. cbn [c_resize in_place blocks bitCount].
    destruct (shl _ _ _) as [m|]; cbn [bind] in *; [|reflexivity]. destruct (vget _ _) as [x|]; cbn [bind] in *; [|reflexivity].
    destruct (vset _ _ _) as [l|] eqn:V; cbn [bind] in *; [|reflexivity]. cbn [in_place blocks]. unfold sim.
    destruct (ResetExtraBits w (mkB l n)) as [b'|f]; cbn [bind]; [|reflexivity]. eexists; eexists. split; [reflexivity|]. now rewrite (L b' eq_refl).
  - cbn [bind c_resize in_place blocks] in *. unfold sim.
    destruct (ResetExtraBits w (mkB (vresize (blocks b) (nblocks w n) fill) n)) as [b'|f]; cbn [bind]; [|reflexivity]. eexists; eexists. split; [reflexivity|]. now rewrite (L b' eq_refl).
Qed.

Lemma uset_sim b s k i v : length (blocks b) <= room s -> sim (cUnboundedSet grow w (b, s, k) i v) (UnboundedSet w b i v) s k.
Proof.
  intros R. unfold cUnboundedSet, UnboundedSet. cbn [fst]. destruct (i <? bitCount b).
  - apply in_place_sim. intros b' E. now rewrite (set_len _ _ _ _ E).
  - destruct v.
    + apply sim_bind; [apply resize_sim|]. intros b' s' k' E R'. split.
      * apply in_place_sim. intros b2 E2. now rewrite (set_len _ _ _ _ E2).
      * intros b2 E2. now rewrite (set_len _ _ _ _ E2).
    + cbn [sim]. exists s, k. split; [reflexivity|]. now apply kept_refl.
Qed.

Lemma push_sim b s k x : exists s' k', c_push grow (b, s, k) x = (mkB (blocks b ++ [x]) (bitCount b), s', k') /\ kept s k (length (blocks b) + 1) s' k'.
Proof. eexists; eexists. split; [reflexivity|]. apply ensure_kept. Qed.

Lemma pushes_sim tw j : forall z b s k bits n, length (blocks b) <= room s -> exists l bits' n' s' k',
  c_pushes grow w tw j (b, s, k) bits n = ((mkB l (bitCount b), s', k'), bits', n') /\ length l = length (blocks b) + j /\ kept s k (length l) s' k' /\
  foreach (seq z j) (fun '(l, bits, n) _ => Done (l ++ [trunc w bits], (if w <? tw then N.shiftr bits (N.of_nat w) else 0%N), n - w)) (blocks b, bits, n) = Done (l, bits', n').
Proof.
  induction j as [|j IH]; intros z b s k bits n R.
  - exists (blocks b), bits, n, s, k. split; [now destruct b|]. split; [lia|]. split; [now apply kept_refl | reflexivity].
  - cbn [c_pushes seq foreach bind]. destruct (push_sim b s k (trunc w bits)) as (s1 & k1 & -> & K1).
    destruct (IH (S z) (mkB (blocks b ++ [trunc w bits]) (bitCount b)) s1 k1 (if w <? tw then N.shiftr bits (N.of_nat w) else 0%N) (n - w)) as (l & bits' & n' & s' & k' & E & L & K & F).
    { cbn [blocks]. rewrite app_length. cbn [length]. apply K1. }
    cbn [blocks bitCount] in *. rewrite app_length in L. cbn [length] in L. exists l, bits', n', s', k'. split; [exact E|]. split; [lia|]. split; [|exact F].
    eapply kept_trans; [exact K1 | lia | exact K].
Qed.

Lemma cAppend_eq tw b0 s k bits0 n0 : cAppendBits grow w tw (b0, s, k) bits0 n0 =
  match first_part w tw b0 bits0 n0 with
  | Fault f => Fault f
  | Done (l, bits, n) =>
    if 0 <? n then
      let '(m, bits, n) := c_pushes grow w tw (ComputeBlockCount w n - 1) (mkB l (bitCount b0 + n0), s, k) bits n in
      one <- shlp w 1 n ;; Done (c_push grow m (trunc w (N.land bits (one - 1))))
    else Done (mkB l (bitCount b0 + n0), s, k)
  end.
Proof.
  unfold cAppendBits, first_part. cbv zeta. cbn [blocks bitCount]. destruct (negb (bitCount b0 mod w =? 0)); [|reflexivity].
  destruct (vget (blocks b0) (length (blocks b0) - 1)) as [x|f]; [|reflexivity]. cbn [bind].
  destruct (shl w (trunc w bits0) (bitCount b0 mod w)) as [y|f]; [|reflexivity]. cbn [bind].
  destruct (vset (blocks b0) (length (blocks b0) - 1) (N.lor x y)) as [l|f]; reflexivity.
Qed.

Lemma first_part_len tw b bits0 n0 l bits n : first_part w tw b bits0 n0 = Done (l, bits, n) -> length l = length (blocks b).
Proof.
  unfold first_part. cbv zeta. destruct (negb (bitCount b mod w =? 0)); [|intros E; now injection E as <- _ _].
  destruct (vget _ _) as [x|]; cbn [bind]; [|discriminate]. destruct (shl _ _ _) as [y|]; cbn [bind]; [|discriminate].
  destruct (vset _ _ _) as [l'|] eqn:V; cbn [bind]; [|discriminate]. intros E. injection E as <- _ _. apply (vset_len _ _ _ _ V).
Qed.

Lemma append_sim tw b s k x n : length (blocks b) <= room s ->
  sim (cAppendBits grow w tw (b, s, k) x n) (AppendBits w tw b x n) s k /\ forall b', AppendBits w tw b x n = Done b' -> length (blocks b) <= length (blocks b').
Proof.
  intros R. rewrite cAppend_eq. unfold AppendBits. fold (first_part w tw b x n).
  destruct (first_part w tw b x n) as [[[l bits] m]|f] eqn:F; [|split; [reflexivity | discriminate]]. cbn [bind].
  pose proof (first_part_len _ _ _ _ _ _ _ F) as L. destruct (0 <? m).
  - cbv zeta. destruct (pushes_sim tw (ComputeBlockCount w m - 1) 0 (mkB l (bitCount b + n)) s k bits m) as (l' & bits' & n' & s' & k' & -> & L' & K & E); [cbn [blocks]; lia|].
    cbn [blocks bitCount] in *. unfold range. rewrite Nat.sub_0_r. rewrite E. cbn [bind].
    destruct (shlp w 1 n') as [o|f]; cbn [bind]; [|split; [reflexivity | discriminate]].
    destruct (push_sim (mkB l' (bitCount b + n)) s' k' (trunc w (N.land bits' (o - 1)))) as (s2 & k2 & -> & K2). cbn [blocks bitCount] in *. split.
    + unfold sim. exists s2, k2. split; [reflexivity|]. cbn [blocks]. rewrite app_length. cbn [length]. eapply kept_trans; [exact K | lia | exact K2].
    + intros b' E'. injection E' as <-. cbn [blocks]. rewrite app_length. lia.
  - split.
    + unfold sim. exists s, k. split; [reflexivity|]. apply kept_refl. cbn [blocks]. lia.
    + intros b' E'. injection E' as <-. cbn [blocks]. lia.
Qed.

Lemma bytes_sim mem ps : forall b n s k, length (blocks b) <= room s ->
  match foreach ps (fun '(b, n) p => byte <- vget mem p ;; b' <- AppendBits w 8 b byte (Nat.min n 8) ;; Done (b', n - Nat.min n 8)) (b, n) with
  | Done (b', n') => exists s' k', foreach ps (fun '(m, n) p => byte <- vget mem p ;; m <- cAppendBits grow w 8 m byte (Nat.min n 8) ;; Done (m, n - Nat.min n 8)) ((b, s, k), n) = Done ((b', s', k'), n') /\
      kept s k (length (blocks b')) s' k' /\ length (blocks b) <= length (blocks b')
  | Fault f => foreach ps (fun '(m, n) p => byte <- vget mem p ;; m <- cAppendBits grow w 8 m byte (Nat.min n 8) ;; Done (m, n - Nat.min n 8)) ((b, s, k), n) = Fault f
  end.
Proof.
  induction ps as [|p ps IH]; intros b n s k R; cbn [foreach].
  - exists s, k. split; [reflexivity|]. split; [now apply kept_refl | lia].
  - destruct (vget mem p) as [byte|f]; cbn [bind]; [|reflexivity].
    destruct (append_sim 8 b s k byte (Nat.min n 8) R) as [S M]. unfold sim in S. destruct (AppendBits w 8 b byte (Nat.min n 8)) as [b1|f]; cbn [bind]; [|now rewrite S].
    destruct S as (s1 & k1 & -> & K1). cbn [bind]. specialize (IH b1 (n - Nat.min n 8) s1 k1 ltac:(apply K1)).
    destruct (foreach ps _ (b1, n - Nat.min n 8)) as [[b2 n2]|f]; [|exact IH]. destruct IH as (s2 & k2 & E & K2 & L2). exists s2, k2. split; [exact E|].
    specialize (M b1 eq_refl). split; [|lia]. eapply kept_trans; [exact K1 | exact L2 | exact K2].
Qed.

Lemma write_sim mem b s k seq n : length (blocks b) <= room s ->
  sim (cWrite grow w mem (b, s, k) seq n) (' (b', _) <- Write w mem b seq n ;; Done b') s k.
Proof.
  intros R. destruct seq as [ptr second]. unfold cWrite, Write. destruct (assert (second <? 8)) as [u|f]; cbn [bind]; [|reflexivity]. cbv zeta.
  set (e := ptr + _ + 1).
  assert (T : forall b1 s1 k1 p n1, length (blocks b1) <= room s1 -> kept s k (length (blocks b1)) s1 k1 ->
    sim ('(m, _) <- foreach (range p e) (fun '(m, n) p => byte <- vget mem p ;; m <- cAppendBits grow w 8 m byte (Nat.min n 8) ;; Done (m, n - Nat.min n 8)) ((b1, s1, k1), n1) ;; Done m)
      ('(b', _) <- ('(b2, n2) <- foreach (range p e) (fun '(b, n) p => byte <- vget mem p ;; b' <- AppendBits w 8 b byte (Nat.min n 8) ;; Done (b', n - Nat.min n 8)) (b1, n1) ;;
        Done (b2, (ptr + (if second + n =? 0 then 0 else (second + n - 1) / 8) + (if (second + n) mod 8 =? 0 then 1 else 0), (second + n) mod 8))) ;; Done b') s k).
  { intros b1 s1 k1 p n1 R1 K1. pose proof (bytes_sim mem (range p e) b1 n1 s1 k1 R1) as B.
    destruct (foreach (range p e) _ (b1, n1)) as [[b2 n2]|f]; cbn [bind].
    - destruct B as (s2 & k2 & -> & K2 & L2). cbn [bind]. unfold sim. exists s2, k2. split; [reflexivity|]. eapply kept_trans; [exact K1 | exact L2 | exact K2].
    - unfold sim. now rewrite B. }
  destruct (negb (second =? 0)).
  - destruct (vget mem ptr) as [byte|f]; cbn [bind]; [|reflexivity]. destruct (shr _ _ _) as [v|f]; cbn [bind]; [|reflexivity].
    destruct (append_sim (pw w) b s k v (Nat.min n (8 - second)) R) as [S _]. unfold sim in S.
    destruct (AppendBits w (pw w) b v (Nat.min n (8 - second))) as [b1|f]; cbn [bind]; [|now rewrite S].
    destruct S as (s1 & k1 & -> & K1). cbn [bind]. apply T; [apply K1 | exact K1].
  - cbn [bind]. apply T; [exact R | now apply kept_refl].
Qed.

(** Constructors: a storage large enough, from allocations made now. *)
Definition built (e : outcome one) (o : outcome bitset) (k : nat) : Prop :=
  match o with
  | Done b => exists s' k', e = Done (b, s', k') /\ length (blocks b) <= room s' /\ k <= k' /\ (s' = no_storage \/ k <= home s' < k')
  | Fault f => e = Fault f
  end.

Lemma sim_built e o k : sim e o no_storage k -> built e o k.
Proof.
  unfold sim, built. destruct o as [b|f]; [|auto]. intros (s' & k' & E & K1 & K2 & K3 & K4). exists s', k'. split; [exact E|]. split; [exact K1|]. split; [exact K2|].
  destruct (Nat.le_gt_cases (length (blocks b)) (room no_storage)) as [C|C]; [left; now apply K3 | right; now apply K4].
Qed.

Lemma make_built k n v : built (c_make grow w k n v) (make w n v) k.
Proof. apply sim_built. apply resize_sim. Qed.

Lemma string_len t l : forall b b', foreach l (fun b i => c <- vget t i ;;
  if (c =? 49)%N then Set_ w b (bitCount b - i - 1) true else if (c =? 48)%N then Done b else Fault FAssert) b = Done b' -> length (blocks b') = length (blocks b).
Proof.
  induction l as [|i l IH]; intros b b' E; cbn [foreach] in E; [now injection E as <-|].
  destruct (vget t i) as [c|]; cbn [bind] in E; [|discriminate]. destruct (c =? 49)%N.
  - destruct (Set_ w b (bitCount b - i - 1) true) as [b1|] eqn:S; cbn [bind] in E; [|discriminate]. rewrite (IH _ _ E). apply (set_len _ _ _ _ S).
  - destruct (c =? 48)%N; cbn [bind] in E; [|discriminate]. apply (IH _ _ E).
Qed.

Lemma string_built k t : built (c_of_string grow w k t) (of_string w t) k.
Proof.
  apply sim_built. unfold c_of_string, of_string, fresh, c_resize. cbn [blocks empty in_place]. set (l := vresize [] (ComputeBlockCount w (length t)) 0%N).
  pose proof (ensure_kept no_storage k (ComputeBlockCount w (length t))) as K. unfold sim.
  match goal with |- match ?e with _ => _ end => destruct e as [b|f] eqn:E end; cbn [bind].
  - eexists; eexists. split; [reflexivity|]. apply string_len in E. rewrite E. cbn [blocks]. unfold l. now rewrite vresize_length.
  - reflexivity.
Qed.

Lemma int_built k tw z : built (c_of_int grow w k tw z) (of_int w tw z) k.
Proof.
  unfold c_of_int, of_int. destruct (tw <=? w).
  - unfold fresh. destruct (push_sim (mkB [] tw) no_storage k (Z.to_N (cast (block_ty w) z))) as (s' & k' & -> & K1 & K2 & K3 & K4). cbn [blocks bitCount app length] in *.
    unfold built. exists s', k'. cbn [blocks length]. split; [reflexivity|]. split; [exact K1|]. split; [exact K2|]. right. apply K4. cbn. lia.
  - assert (A : forall l b s k0, length (blocks b) <= room s -> k <= k0 -> (s = no_storage \/ k <= home s < k0) ->
      match foreach l (fun b i => if Z.testbit z (Z.of_nat i) then UnboundedSet w b i true else Done b) b with
      | Done b' => exists s' k', foreach l (fun m i => if Z.testbit z (Z.of_nat i) then cUnboundedSet grow w m i true else Done m) (b, s, k0) = Done (b', s', k') /\
          length (blocks b') <= room s' /\ k <= k' /\ (s' = no_storage \/ k <= home s' < k')
      | Fault f => foreach l (fun m i => if Z.testbit z (Z.of_nat i) then cUnboundedSet grow w m i true else Done m) (b, s, k0) = Fault f
      end).
    { induction l as [|i l IH]; intros b s k0 R K Q; cbn [foreach]; [eauto 8|]. destruct (Z.testbit z (Z.of_nat i)); cbn [bind]; [|now apply IH].
      pose proof (uset_sim b s k0 i true R) as S. unfold sim in S. destruct (UnboundedSet w b i true) as [b1|f]; cbn [bind]; [|now rewrite S].
      destruct S as (s1 & k1 & -> & K1 & K2 & K3 & K4). cbn [bind]. apply IH; [exact K1 | lia|].
      destruct (Nat.le_gt_cases (length (blocks b1)) (room s)) as [C|C]; [destruct (K3 C) as [-> ->]; exact Q | right; specialize (K4 C); lia]. }
    unfold fresh. specialize (A (range 0 tw) empty no_storage k ltac:(cbn; lia) ltac:(lia) ltac:(now left)). unfold built.
    destruct (foreach (range 0 tw) _ empty) as [b|f]; [|exact A]. destruct A as (s' & k' & E & L & K & Q). exists s', k'. split; [exact E|]. split; [exact L|]. split; [exact K | exact Q].
Qed.

(** ** Several bitsets *)
Definition roomy (st : cstate) : Prop := forall r, length (blocks (bs st r)) <= room (stores st r).

(** What a call does to the storage of a bitset that it does not construct anew or exchange. *)
Definition stays (st st' : cstate) (r : nat) : Prop :=
  let n := length (blocks (bs st' r)) in
  (n <= room (stores st r) -> stores st' r = stores st r) /\ (room (stores st r) < n -> next st <= home (stores st' r) < next st').
(** Calls after which [r] has the storage of another object; calls that construct one. *)
Definition replaces (r : nat) (o : op) : Prop :=
  match o with OMake q _ _ | OString q _ | OInt q _ _ => q = r | OSwap a b => a = r \/ b = r | _ => False end.
Definition constructs (o : op) : Prop := match o with OMake _ _ _ | OString _ _ | OInt _ _ _ => True | _ => False end.

Definition moves (st st' : cstate) (o : op) : Prop :=
  roomy st' /\ next st <= next st' /\ (forall r, ~ replaces r o -> stays st st' r) /\
  (~ constructs o -> (forall r, replaces r o \/ length (blocks (bs st' r)) <= room (stores st r)) -> next st' = next st) /\
  (constructs o -> forall r, replaces r o -> blocks (bs st' r) <> [] -> next st <= home (stores st' r) < next st') /\
  (forall r, (exists q, stores st' r = stores st q) \/ stores st' r = no_storage \/ next st <= home (stores st' r) < next st').

Lemma tput_same {A} (f : nat -> A) r x : tput f r x r = x.
Proof. unfold tput. now rewrite Nat.eqb_refl. Qed.
Lemma tput_other {A} (f : nat -> A) r q x : q <> r -> tput f r x q = f q.
Proof. intros H. unfold tput. now destruct (Nat.eqb_spec q r). Qed.
Lemma sput_here (f : nat -> bitset) r x : sput f r x r = x.
Proof. unfold sput. now rewrite Nat.eqb_refl. Qed.
Lemma sput_there (f : nat -> bitset) r q x : q <> r -> sput f r x q = f q.
Proof. intros H. unfold sput. now destruct (Nat.eqb_spec q r). Qed.

(** One bitset is written. *)
Lemma written st o r b s' k' : roomy st -> ~ constructs o -> (forall q, ~ replaces q o) -> kept (stores st r) (next st) (length (blocks b)) s' k' ->
  forall l, l r = b -> (forall q, q <> r -> length (blocks (l q)) = length (blocks (bs st q))) -> moves st (CS l (tput (stores st) r s') k') o.
Proof.
  intros R C N (K1 & K2 & K3 & K4) l L1 L2. unfold moves, stays, roomy. cbn [bs stores next].
  split; [|split; [exact K2|split; [|split; [|split]]]].
  - intros q. destruct (Nat.eq_dec q r) as [->|Q]; [now rewrite tput_same, L1 | rewrite tput_other, L2 by assumption; apply R].
  - intros q _. destruct (Nat.eq_dec q r) as [->|Q].
    + rewrite tput_same, L1. split; [intros H; now apply K3 | exact K4].
    + rewrite tput_other, L2 by assumption. split; [reflexivity|]. intros H. specialize (R q). lia.
  - intros _ H. destruct (H r) as [H1|H1]; [now apply N in H1|]. rewrite L1 in H1. now apply K3.
  - intros H. now apply C in H.
  - intros q. destruct (Nat.eq_dec q r) as [->|Q]; [|left; exists q; now apply tput_other]. rewrite tput_same.
    destruct (Nat.le_gt_cases (length (blocks b)) (room (stores st r))) as [D|D]; [left; exists r; now apply K3 | right; right; now apply K4].
Qed.

Lemma at_one_moves st o r e f : roomy st -> ~ constructs o -> (forall q, ~ replaces q o) -> sim e f (stores st r) (next st) ->
  match at1 (bs st) r f with
  | Done l => exists st', at_one st r e = Done st' /\ bs st' = l /\ moves st st' o
  | Fault x => at_one st r e = Fault x
  end.
Proof.
  intros R C N S. unfold at1, at_one. unfold sim in S. destruct f as [b|x]; [|now rewrite S]. destruct S as (s' & k' & -> & K). cbn [bind].
  eexists. split; [reflexivity|]. cbn [back]. split; [reflexivity|]. eapply written; [exact R | exact C | exact N | exact K | apply sput_here|].
  intros q Q. now rewrite sput_there.
Qed.

Lemma built_moves st o r e f : roomy st -> constructs o -> (forall q, replaces q o <-> r = q) -> built e f (next st) ->
  match at1 (bs st) r f with
  | Done l => exists st', at_one st r e = Done st' /\ bs st' = l /\ moves st st' o
  | Fault x => at_one st r e = Fault x
  end.
Proof.
  intros R C N S. unfold at1, at_one. unfold built in S. destruct f as [b|x]; [|now rewrite S]. destruct S as (s' & k' & -> & L & K & Q). cbn [bind].
  eexists. split; [reflexivity|]. cbn [back]. split; [reflexivity|]. unfold moves, stays, roomy. cbn [bs stores next].
  split; [|split; [exact K|split; [|split; [|split]]]].
  - intros q. destruct (Nat.eq_dec q r) as [->|D]; [now rewrite tput_same, sput_here | rewrite tput_other, sput_there by assumption; apply R].
  - intros q D. assert (q <> r) by (intros ->; apply D; now apply N). rewrite tput_other, sput_there by assumption. split; [reflexivity|]. intros H'. specialize (R q). lia.
  - intros H. now apply H in C.
  - intros _ q D. apply N in D as ->. rewrite tput_same, sput_here. intros B. destruct Q as [->|Q]; [|exact Q]. cbn [no_storage room] in L. destruct (blocks b); [congruence | cbn [length] in L; lia].
  - intros q. destruct (Nat.eq_dec q r) as [->|D]; [rewrite tput_same; right; exact Q | left; exists q; now apply tput_other].
Qed.

Lemma in_place_moves st s o s' : roomy st -> repr_all w (bs st) s -> ~ constructs o -> (forall q, ~ replaces q o) -> (forall q, length (s' q) <= length (s q)) ->
  match step w (bs st) o with
  | Done l => repr_all w l s' -> exists st', c_in_place w st o = Done st' /\ bs st' = l /\ moves st st' o
  | Fault x => c_in_place w st o = Fault x
  end.
Proof.
  intros R H C N L. unfold c_in_place. destruct (step w (bs st) o) as [l|x]; [|reflexivity]. intros H'. cbn [bind].
  eexists. split; [reflexivity|]. split; [reflexivity|].
  assert (Q : forall q, length (blocks (l q)) <= room (stores st q)).
  { intros q. pose proof (R q) as Rq. destruct (H q) as (_ & E1 & _). destruct (H' q) as (_ & E2 & _). rewrite E2. rewrite E1 in Rq.
    pose proof (nblocks_le w (length (s' q)) (length (s q)) (L q)). lia. }
  unfold moves, stays, roomy. cbn [bs stores next]. split; [exact Q|]. split; [lia|]. split; [|split; [|split]].
  - intros q _. split; [reflexivity|]. specialize (Q q). lia.
  - reflexivity.
  - intros D. now apply C in D.
  - intros q. left. now exists q.
Qed.

Lemma logic_moves st s o d n f s' : roomy st -> repr_all w (bs st) s -> ~ constructs o -> (forall q, ~ replaces q o) ->
  n = nblocks w (length (s' d)) -> (forall q, q <> d -> length (s' q) = length (s q)) ->
  match f (sput (bs st) d (mkB (vresize (blocks (bs st d)) n 0%N) (bitCount (bs st d)))) with
  | Done l => repr_all w l s' -> exists st', c_logic grow st d n f = Done st' /\ bs st' = l /\ moves st st' o
  | Fault x => c_logic grow st d n f = Fault x
  end.
Proof.
  intros R H C N En L. unfold c_logic, whole, c_resize, back. cbn [bs stores next].
  destruct (f _) as [l|x]; [|reflexivity]. intros H'. cbn [bind]. eexists. split; [reflexivity|]. split; [reflexivity|].
  apply (written st o d (l d)); [exact R | exact C | exact N | | reflexivity|].
  - destruct (H' d) as (_ & E & _). rewrite E, <- En. apply ensure_kept.
  - intros q Q. destruct (H q) as (_ & E1 & _). destruct (H' q) as (_ & E2 & _). now rewrite E1, E2, L.
Qed.

Lemma nblocks_max a b : Nat.max (nblocks w a) (nblocks w b) = nblocks w (Nat.max a b).
Proof.
  destruct (Nat.le_gt_cases a b) as [C|C].
  - pose proof (nblocks_le w a b C). rewrite (Nat.max_r a b) by exact C. now apply Nat.max_r.
  - pose proof (nblocks_le w b a ltac:(lia)). rewrite (Nat.max_l a b) by lia. now apply Nat.max_l.
Qed.

Lemma lput_here (s : nat -> list bool) r l : lput s r l r = l.
Proof. unfold lput. now rewrite Nat.eqb_refl. Qed.
Lemma lput_there (s : nat -> list bool) r q l : q <> r -> lput s r l q = s q.
Proof. intros H. unfold lput. now destruct (Nat.eqb_spec q r). Qed.
Lemma lput_len s r l q : length l <= length (s r) -> length (lput s r l q) <= length (s q).
Proof. intros H. unfold lput. destruct (Nat.eqb_spec q r) as [->|]; lia. Qed.

Lemma shl_len l k : length (s_shl l k) = length l.
Proof. unfold s_shl. rewrite firstn_length, app_length, repeat_length. lia. Qed.
Lemma shr_len l k : length (s_shr l k) = length l.
Proof. unfold s_shr. rewrite app_length, skipn_length, repeat_length. lia. Qed.

Lemma block_count b l : repr w b l -> length (blocks b) = nblocks w (length l).
Proof. now intros (_ & E & _). Qed.
Lemma greater_count (st : nat -> bitset) a b la lb : repr w (st a) la -> repr w (st b) lb ->
  GetBlockCount (st (if GetSize (st b) <? GetSize (st a) then a else b)) = nblocks w (Nat.max (length la) (length lb)).
Proof.
  intros A B. unfold GetBlockCount, GetSize. pose proof A as (A1 & A2 & _). pose proof B as (B1 & B2 & _). rewrite A1, B1.
  destruct (Nat.ltb_spec (length lb) (length la)); [rewrite Nat.max_l by lia; exact A2 | rewrite Nat.max_r by lia; exact B2].
Qed.

Lemma cstep_done st s o : roomy st -> repr_all w (bs st) s -> wf_op w s o ->
  match spec_step w s o with
  | Some s' => exists st', cstep grow w st (Call o) = Done st' /\ step w (bs st) o = Done (bs st') /\ repr_all w (bs st') s' /\ moves st st' o
  | None => cstep grow w st (Call o) = Fault FAssert
  end.
Proof.
  intros R H WF. pose proof (step_repr w (bs st) s o H WF) as S.
  assert (Fin : forall e s', (exists st', step w (bs st) o = Done st' /\ repr_all w st' s') ->
    match step w (bs st) o with Done l => repr_all w l s' -> exists st', e = Done st' /\ bs st' = l /\ moves st st' o | Fault x => e = Fault x end ->
    exists st', e = Done st' /\ step w (bs st) o = Done (bs st') /\ repr_all w (bs st') s' /\ moves st st' o).
  { intros e s' (l & E & Rl) M. rewrite E in M. destruct (M Rl) as (st' & E1 & E2 & M1). exists st'. rewrite E2. auto. }
  assert (Sole : forall e s', (exists st', step w (bs st) o = Done st' /\ repr_all w st' s') ->
    match step w (bs st) o with Done l => exists st', e = Done st' /\ bs st' = l /\ moves st st' o | Fault x => e = Fault x end ->
    exists st', e = Done st' /\ step w (bs st) o = Done (bs st') /\ repr_all w (bs st') s' /\ moves st st' o).
  { intros e s' B M. apply (Fin e s' B). destruct (step w (bs st) o); [intros _|]; exact M. }
  assert (Bad : forall e, step w (bs st) o = Fault FAssert ->
    match step w (bs st) o with Done l => exists st', e = Done st' /\ bs st' = l /\ moves st st' o | Fault x => e = Fault x end -> e = Fault FAssert).
  { intros e E M. now rewrite E in M. }
  assert (Loc : c_in_place w st o = Fault FAssert \/ step w (bs st) o <> Fault FAssert).
  { unfold c_in_place. destruct (step w (bs st) o) as [l|[]]; try (right; discriminate). now left. }
  assert (BadLoc : step w (bs st) o = Fault FAssert -> c_in_place w st o = Fault FAssert) by (intros E; destruct Loc as [L|L]; [exact L | contradiction]).
  destruct o; cbn [cstep spec_step] in *;
    try (match goal with |- match (if ?c then _ else _) with _ => _ end => destruct c; [|now apply BadLoc] end);
    try (apply (Fin _ _ S); apply (in_place_moves st s); [exact R | exact H | exact (fun x => x) | exact (fun _ x => x) |
      intros q; apply lput_len; cbn [length]; try destruct k; rewrite ?shl_len, ?shr_len; unfold s_set, s_fill, s_flip; rewrite ?map_length, ?seq_length, ?rev_length, ?repeat_length, ?upd_length; lia]).
  - apply (Sole _ _ S). apply (built_moves st _ r); [exact R | exact Logic.I | intros q; cbn; tauto | apply make_built].
  - assert (M : match step w (bs st) (OString r s0) with
      | Done l => exists st', at_one st r (c_of_string grow w (next st) s0) = Done st' /\ bs st' = l /\ moves st st' (OString r s0)
      | Fault x => at_one st r (c_of_string grow w (next st) s0) = Fault x
      end) by (apply (built_moves st _ r); [exact R | exact Logic.I | intros q; cbn; tauto | apply string_built]).
    destruct (digits s0); [apply (Sole _ _ S M) | apply (Bad _ S M)].
  - apply (Sole _ _ S). apply (built_moves st _ r); [exact R | exact Logic.I | intros q; cbn; tauto | apply int_built].
  - apply (Sole _ _ S). apply (at_one_moves st _ r); [exact R | exact (fun x => x) | exact (fun _ x => x) | apply resize_sim].
  - apply (Sole _ _ S). apply (at_one_moves st _ r); [exact R | exact (fun x => x) | exact (fun _ x => x) | apply uset_sim, R].
  - apply (Sole _ _ S). apply (at_one_moves st _ r); [exact R | exact (fun x => x) | exact (fun _ x => x) | apply append_sim, R].
  - apply (Fin _ _ S). unfold cPerformsAND. cbv zeta. match goal with |- context [c_logic grow st d ?n ?f] =>
      refine (logic_moves st s (OAnd d a b) d n f (lput s d (s_zip andb (s a) (s b))) R H (fun x => x) (fun _ x => x) _ _) end; [|intros q Q; now rewrite lput_there].
    rewrite lput_here, s_zip_length, <- nblocks_max. unfold GetBlockCount. now rewrite (block_count _ _ (H a)), (block_count _ _ (H b)).
  - apply (Fin _ _ S). unfold cPerformsOp. cbv zeta. match goal with |- context [c_logic grow st d ?n ?f] =>
      refine (logic_moves st s (OOr d a b) d n f (lput s d (s_zip orb (s a) (s b))) R H (fun x => x) (fun _ x => x) _ _) end; [|intros q Q; now rewrite lput_there].
    rewrite lput_here, s_zip_length. apply greater_count; apply H.
  - apply (Fin _ _ S). unfold cPerformsOp. cbv zeta. match goal with |- context [c_logic grow st d ?n ?f] =>
      refine (logic_moves st s (OXor d a b) d n f (lput s d (s_zip xorb (s a) (s b))) R H (fun x => x) (fun _ x => x) _ _) end; [|intros q Q; now rewrite lput_there].
    rewrite lput_here, s_zip_length. apply greater_count; apply H.
  - apply (Fin _ _ S). unfold cPerformsNOT. cbv zeta. match goal with |- context [c_logic grow st d ?n ?f] =>
      refine (logic_moves st s (ONot d a) d n f (lput s d (s_flip (s a))) R H (fun x => x) (fun _ x => x) _ _) end; [|intros q Q; now rewrite lput_there].
    rewrite lput_here. unfold s_flip. rewrite map_length. unfold GetBlockCount. apply (block_count _ _ (H a)).
  - apply (Sole _ _ S). cbn [step]. unfold c_copy. destruct (Nat.eqb_spec d s0) as [->|D].
    + eexists. split; [reflexivity|]. split; [reflexivity|].
      assert (Q : forall q, length (blocks (sput (bs st) s0 (bs st s0) q)) <= room (stores st q)).
      { intros q. destruct (Nat.eq_dec q s0) as [->|E]; [rewrite sput_here | rewrite sput_there by exact E]; apply R. }
      unfold moves, stays, roomy. cbn [bs stores next]. split; [exact Q|]. split; [lia|]. split; [|split; [|split]].
      * intros q _. split; [reflexivity|]. specialize (Q q). lia.
      * reflexivity.
      * intros [].
      * intros q. left. now exists q.
    + eexists. split; [reflexivity|]. split; [reflexivity|].
      apply (written st (OCopy d s0) d (bs st s0)); [exact R | exact (fun x => x) | exact (fun _ x => x) | apply ensure_kept | apply sput_here|].
      intros q Q. now rewrite sput_there.
  - apply (Sole _ _ S). cbn [step]. eexists. split; [reflexivity|]. split; [reflexivity|].
    assert (Q : forall q, length (blocks (Swap (bs st) a b q)) <= room (tput (tput (stores st) a (stores st b)) b (stores st a) q)).
    { intros q. unfold Swap. destruct (Nat.eq_dec q b) as [->|E]; [rewrite sput_here, tput_same; apply R|]. rewrite sput_there, tput_other by exact E.
      destruct (Nat.eq_dec q a) as [->|E']; [rewrite sput_here, tput_same | rewrite sput_there, tput_other by exact E']; apply R. }
    unfold moves, stays, roomy. cbn [c_swap bs stores next replaces]. split; [exact Q|]. split; [lia|]. split; [|split; [|split]].
    + intros q N. assert (q <> a /\ q <> b) as [N1 N2] by (split; intros ->; apply N; [left | right]; reflexivity). specialize (Q q). rewrite !tput_other in Q by assumption. rewrite !tput_other by assumption. split; [reflexivity | lia].
    + reflexivity.
    + intros [].
    + intros q. left. destruct (Nat.eq_dec q b) as [->|E]; [exists a; apply tput_same|]. rewrite tput_other by exact E.
      destruct (Nat.eq_dec q a) as [->|E']; [exists b; apply tput_same | exists q; now apply tput_other].
  - apply (Sole _ _ S). apply (at_one_moves st _ r); [exact R | exact (fun x => x) | exact (fun _ x => x) | apply uset_sim, R].
  - apply (Sole _ _ S). apply (at_one_moves st _ r); [exact R | exact (fun x => x) | exact (fun _ x => x) | apply write_sim, R].
Qed.

End P.
