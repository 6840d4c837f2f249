(** Histories of operations on FixedBitset and HybridBitset variables. *)
From Verif Require Import Base CInt MathModel BitsetModel BitsetSpec BitsetBits BitsetProofs BitsetFind BitsetShift BitsetLogic BitsetInt BitsetWrite BitsetHistory.
From Verif Require Import VectorModel FixedBitsetModel FixedBitsetProofs FixedBitsetCopy.
Open Scope nat_scope.

Section H.
Variables (has : bool) (cap w : nat).
Context {Hw : width w}.
Implicit Types P : Prop.
Let Wpos : 0 < w := width_pos w Hw.
Notation wrep := (wrep has cap).
Notation rel := (brel has cap).
Notation srel := (srel has cap).
Notation overflow := (overflow has cap).

(** As many blocks as the size needs. *)
Definition exact_blocks (b : bitset) : Prop := length (blocks b) = nblocks w (bitCount b).

Lemma s_AppendBits P tw b g bits0 n0 : rel b g -> exact_blocks b -> (overflow (nblocks w (bitCount b + n0)) -> P) ->
  sim P (fun b' g' => rel b' g' /\ exact_blocks b' /\ bitCount b' = bitCount b + n0) (AppendBits w tw b bits0 n0) (fb_AppendBits has cap w tw g bits0 n0).
Proof.
  intros [HB E] HL HP. unfold AppendBits, fb_AppendBits. cbv zeta. rewrite E. red in HL.
  set (len := bitCount b) in *. set (nb := nblocks w len) in *. set (n1 := n0 - free_bits w len).
  destruct (nblocks_spec w len) as [NB1 NB2]. fold nb in NB1, NB2.
  apply sim_bind with (fun '(l, x, n) '(v, x', n') => wrep l v /\ x = x' /\ n = n' /\ length l = nb /\ n = n1).
  - destruct (free_bits_spec w len) as [(F1 & F2)|(F1 & F2)].
    + rewrite F1. cbn [Nat.eqb negb]. apply sim_done. repeat split; auto. unfold n1. rewrite F2. lia.
    + destruct (Nat.eqb_spec (len mod w) 0); [lia|]. cbn [negb]. rewrite (w_size has cap _ _ HB).
      assert (S : sim P eq (vget (blocks b) (length (blocks b) - 1)) (o <- fv_back has (fblocks g) ;; value o)).
      { unfold fv_back. rewrite (w_empty has cap _ _ HB), (w_size has cap _ _ HB). destruct (Nat.eqb_spec (length (blocks b)) 0) as [Z|Z].
        - rewrite vget_out by lia. exact I.
        - cbn [negb assert bind]. now apply (s_iget has cap). }
      rewrite <- bind_assoc. apply sim_bind with eq; [exact S|]. intros x ? <-. apply sim_bind with eq; [apply sim_refl|]. intros s ? <-.
      destruct (Nat.lt_ge_cases (length (blocks b) - 1) (length (blocks b))) as [L|L].
      2: { rewrite vset_out by lia. exact I. }
      rewrite vset_done by assumption. destruct (w_store has cap _ _ (length (blocks b) - 1) (N.lor x s) HB L) as (v & D & R). unfold iset. rewrite D. cbn [bind].
      apply sim_done. repeat split; auto; [now rewrite upd_length|]. unfold n1. rewrite F2. lia.
  - intros [[l x] n] [[v x'] n'] (R & <- & <- & L & ->).
    destruct (Nat.ltb_spec 0 n1) as [Hn|Hn].
    2: { apply sim_done. split; [now split|]. split; [|reflexivity]. red. cbn [blocks bitCount]. rewrite L. unfold nb.
         assert (Hle : n0 <= free_bits w len) by (unfold n1 in Hn; lia). unfold free_bits in Hle. fold nb in Hle.
         apply Nat.le_antisymm; [apply (nblocks_le w); lia|]. fold nb. apply Nat.lt_succ_r. apply (wmul_lt w). rewrite Nat.mul_succ_r.
         destruct (nblocks_spec w (len + n0)). lia. }
    rewrite (ComputeBlockCount_nblocks w). set (bc := nblocks w n1).
    assert (Hbc : 0 < bc) by (apply Nat.neq_0_lt_0; intros C; apply (proj1 (nblocks_0 w n1)) in C; lia).
    assert (NN : nblocks w (len + n0) = nb + bc).
    { unfold bc. assert (HO : len + n0 = w * nb + n1) by (assert (FB : free_bits w len = w * nb - len) by reflexivity; unfold n1 in *; lia). rewrite HO. unfold nblocks.
      replace (w * nb + n1 + w - 1) with (n1 + w - 1 + nb * w) by lia. rewrite Nat.div_add by lia. lia. }
    rewrite NN in HP.
    apply sim_bind with (fun '(l, x, n) '(v, x', n') => wrep l v /\ x = x' /\ n = n' /\ length l = nb + length (range 0 (bc - 1))).
    + apply (sim_foreach_k P _ _ _ (fun k '(l, x, n) '(v, x', n') => wrep l v /\ x = x' /\ n = n' /\ length l = nb + k)).
      * repeat split; auto. lia.
      * intros k [[l1 x1] n2] [[v1 x1'] n2'] Hk (R1 & <- & <- & L1). rewrite range_length in Hk.
        change (sim P (fun '(l, x, n) '(v, x', n') => wrep l v /\ x = x' /\ n = n' /\ length l = nb + S k)
          (l <- Done (l1 ++ [trunc w x1]) ;; Done (l, (if w <? tw then N.shiftr x1 (N.of_nat w) else 0%N), n2 - w))
          (v <- push has cap v1 (trunc w x1) ;; Done (v, (if w <? tw then N.shiftr x1 (N.of_nat w) else 0%N), n2 - w))).
        apply sim_bind with (fun l v => wrep l v /\ l = l1 ++ [trunc w x1]).
        -- pose proof (s_push has cap P l1 v1 (trunc w x1) R1) as S. cbv beta in S.
           destruct S as [(v2 & D & R2)|D]; [intros [O1 O2]; apply HP; split; [exact O1 | lia] | |].
           ++ left. eauto.
           ++ right. exact D.
        -- intros l2 v2 [R2 ->]. apply sim_done. repeat split; auto. rewrite app_length. cbn [length]. lia.
    + intros [[l2 x2] n2] [[v2 x2'] n2'] (R2 & <- & <- & L2). rewrite range_length in L2. apply sim_bind with eq; [apply sim_refl|]. intros one ? <-.
      pose proof (s_push has cap P l2 v2 (trunc w (N.land x2 (one - 1))) R2) as S.
      destruct S as [(v3 & D & R3)|[D HPp]]; [intros [O1 O2]; apply HP; split; [exact O1 | lia] | |].
      * rewrite D. cbn [bind]. apply sim_done. split; [now split|]. split; [|reflexivity]. red. cbn [blocks bitCount]. rewrite NN, app_length. cbn [length]. lia.
      * rewrite D. right. split; [reflexivity | exact HPp].
Qed.

Lemma s_Write P mem b g seq n0 : rel b g -> exact_blocks b -> (forall k, k <= n0 -> overflow (nblocks w (bitCount b + k)) -> P) ->
  sim P (fun x y => rel (fst x) (fst y) /\ snd x = snd y) (Write w mem b seq n0) (fb_Write has cap w mem g seq n0).
Proof.
  intros H HL HP. unfold Write, fb_Write. destruct seq as [ptr second]. apply sim_assert. intros _. cbv zeta.
  set (T := bitCount b + n0).
  apply sim_bind with (fun '(b', p, n) '(g', p', n') => rel b' g' /\ exact_blocks b' /\ p = p' /\ n = n' /\ bitCount b' + n = T).
  - apply sim_if.
    + apply sim_bind with eq; [apply sim_refl|]. intros byte ? <-. apply sim_bind with eq; [apply sim_refl|]. intros v ? <-.
      apply sim_bind with (fun b' g' => rel b' g' /\ exact_blocks b' /\ bitCount b' = bitCount b + Nat.min n0 (8 - second)).
      * apply s_AppendBits; auto. apply HP. lia.
      * intros b' g' (R & X & C). apply sim_done. repeat split; auto; try apply R. unfold T. lia.
    + apply sim_done. repeat split; auto; apply H.
  - intros [[b1 p] n] [[g1 p'] n'] (R1 & X1 & <- & <- & C1).
    apply sim_bind with (fun '(b', n) '(g', n') => rel b' g' /\ exact_blocks b' /\ n = n' /\ bitCount b' + n = T).
    + apply sim_foreach; [repeat split; auto; apply R1|]. intros i [b2 n2] [g2 n2'] _ (R2 & X2 & <- & C2).
      apply sim_bind with eq; [apply sim_refl|]. intros byte ? <-.
      apply sim_bind with (fun b' g' => rel b' g' /\ exact_blocks b' /\ bitCount b' = bitCount b2 + Nat.min n2 8).
      * apply s_AppendBits; auto. intros [O1 O2]. apply (HP n0); [lia|]. split; [exact O1|]. fold T.
        pose proof (nblocks_le w (bitCount b2 + Nat.min n2 8) T). lia.
      * intros b' g' (R & X & C). apply sim_done. repeat split; auto; try apply R. lia.
    + intros [b3 n3] [g3 n3'] (R3 & X3 & <- & C3). apply sim_done. split; [exact R3 | reflexivity].
Qed.

Lemma s_of_int P tw v : (tw <= w -> overflow 1 -> P) -> (w < tw -> forall i, i < tw -> Z.testbit v (Z.of_nat i) = true -> overflow (nblocks w (i + 1)) -> P) ->
  sim P rel (of_int w tw v) (fb_of_int has cap w tw v).
Proof.
  intros H1 H2. unfold of_int, fb_of_int. destruct (Nat.leb_spec tw w) as [L|L].
  - set (x := Z.to_N (cast (block_ty w) v)).
    destruct (s_push has cap P [] (fv_new cap) x (w_new has cap)) as [(u & -> & R)|[-> HP]]; [now apply H1 | |].
    + cbn [bind app] in *. apply sim_done. now split.
    + right. split; [reflexivity | exact HP].
  - apply sim_foreach; [apply empty_rel|]. intros i b g Hi R. apply in_seq in Hi. destruct (Z.testbit v (Z.of_nat i)) eqn:Ht; [|now apply sim_done].
    apply s_UnboundedSet; [exact R|]. intros _ _ O. apply (H2 L i); auto; [lia|]. rewrite (ComputeBlockCount_nblocks w) in O. exact O.
Qed.

(** ** Histories *)
Definition fat1 (st : nat -> fbitset) (r : nat) (x : outcome fbitset) : outcome (nat -> fbitset) := b <- x ;; Done (fput st r b).
(** r = FixedBitset(...) *)
Definition fnew (st : nat -> fbitset) (r : nat) (x : outcome fbitset) : outcome (nat -> fbitset) := b <- x ;; fb_emplace has cap st r b.

Definition fstep (st : nat -> fbitset) (o : op) : outcome (nat -> fbitset) :=
  match o with
  | OMake r n v => fnew st r (fb_make has cap w n v)
  | OString r s => fnew st r (fb_of_string has cap w s)
  | OInt r tw v => fnew st r (fb_of_int has cap w tw (Z.of_N v))
  | OClear r => fat1 st r (fb_Clear has (st r))
  | OSet r i v => fat1 st r (fb_Set has w (st r) i v)
  | OSetAll r v => fat1 st r (fb_SetAll has w (st r) v)
  | OReset r i => fat1 st r (fb_ResetBit has w (st r) i)
  | OFlip r => fat1 st r (fb_Flip has w (st r))
  | OResize r n v => fat1 st r (fb_Resize has cap w (st r) n v)
  | OShl r k => fat1 st r (fb_ShiftLeft has w (st r) k)
  | OShr r k => fat1 st r (fb_ShiftRight has w (st r) k)
  | OReverse r => fat1 st r (fb_Reverse has w (st r))
  | OUSet r i v => fat1 st r (fb_UnboundedSet has cap w (st r) i v)
  | OAppend r tw v n => fat1 st r (fb_AppendBits has cap w tw (st r) v n)
  | OAnd d a b => fb_PerformsAND has cap w st d a b
  | OOr d a b => fb_PerformsOp has cap w N.lor st d a b
  | OXor d a b => fb_PerformsOp has cap w N.lxor st d a b
  | ONot d a => fb_PerformsNOT has cap w st d a
  | OCopy d s => fb_assign has cap st d s
  | OSwap a b => fb_Swap has cap st a b
  | OSetBlock r i x => fat1 st r (fb_SetBlock has w (st r) i x)
  | OBit r i k => fat1 st r (p <- fb_ref has w (st r) i ;;
      match k with
      | BSet v => fb_Bit_Set has w (st r) p v
      | BReset => fb_Bit_Reset has w (st r) p
      | BFlip => fb_Bit_Flip has (st r) p
      | BOr v => fb_Bit_or has w (st r) p v
      | BAnd v => fb_Bit_and has w (st r) p v
      | BXor v => fb_Bit_xor has w (st r) p v
      | BMinus v => fb_Bit_minus has w (st r) p v
      end)
  | OUReset r i => fat1 st r (fb_UnboundedReset has cap w (st r) i)
  | OWrite r mem ptr offset n => fat1 st r (' (b, _) <- fb_Write has cap w mem (st r) (ptr, offset) n ;; Done b)
  end.

Fixpoint frun (st : nat -> fbitset) (l : list op) : outcome (nat -> fbitset) :=
  match l with [] => Done st | o :: r => st' <- fstep st o ;; frun st' r end.

(** The variable an operation writes. *)
Definition written (o : op) : nat :=
  match o with
  | OMake r _ _ | OString r _ | OInt r _ _ | OClear r | OSet r _ _ | OSetAll r _ | OReset r _ | OFlip r | OResize r _ _ | OShl r _ | OShr r _ | OReverse r
  | OUSet r _ _ | OAppend r _ _ _ | OAnd r _ _ | OOr r _ _ | OXor r _ _ | ONot r _ | OCopy r _ | OSwap r _ | OSetBlock r _ _ | OBit r _ _ | OUReset r _ | OWrite r _ _ _ _ => r
  end.
(** A bitset is not assigned to itself. *)
Definition distinct (o : op) : Prop := match o with OCopy d s => d <> s | _ => True end.

Lemma s_fat1 P st g r x y : srel st g -> sim P rel x y -> sim P srel (at1 st r x) (fat1 g r y).
Proof. intros H S. unfold at1, fat1. apply sim_bind with rel; [exact S|]. intros. now apply s_put. Qed.

Lemma s_fnew P st g r x y : srel st g -> sim P rel x y -> sim P srel (at1 st r x) (fnew g r y).
Proof. intros H S. unfold at1, fnew. apply sim_bind with rel; [exact S|]. intros. now apply s_emplace. Qed.

Lemma exact_repr b l : repr w b l -> exact_blocks b /\ bitCount b = length l.
Proof. intros (HC & HL & _). split; [|exact HC]. red. now rewrite HC. Qed.

Lemma size_le v i : N.testbit v (N.of_nat i) = true -> i + 1 <= N.size_nat v.
Proof.
  intros H. destruct (Nat.lt_ge_cases i (N.size_nat v)) as [C|C]; [lia|]. exfalso.
  rewrite <- (size_bits w v i), sbit_high in H by (now rewrite nbits_length). discriminate.
Qed.

Lemma step_sim st g s o s' : repr_all w st s -> srel st g -> wf_op w s o -> distinct o -> spec_step w s o = Some s' ->
  sim (overflow (nblocks w (length (s' (written o))))) srel (step w st o) (fstep g o).
Proof.
  intros R H W D E. assert (PUT : forall r l, length (lput s r l r) = length l) by (intros; unfold lput; now rewrite Nat.eqb_refl).
  assert (X : forall r, exact_blocks (st r) /\ bitCount (st r) = length (s r)) by (intros r; now apply exact_repr).
  destruct o; cbn [step fstep spec_step written wf_op distinct] in *; try (injection E as <-; rewrite ?PUT).
  - apply s_fnew; [exact H|]. apply s_make. now rewrite repeat_length, (ComputeBlockCount_nblocks w).
  - destruct (digits s0); [|discriminate]. injection E as <-. rewrite PUT. apply s_fnew; [exact H|]. apply s_of_string.
    now rewrite rev_length, map_length, (ComputeBlockCount_nblocks w).
  - apply s_fnew; [exact H|]. apply s_of_int.
    + intros L. destruct (Nat.leb_spec tw w); [|lia]. rewrite nbits_length. intros [O1 O2]. split; [exact O1|].
      pose proof (nblocks_0 w tw). destruct (nblocks w tw); [|lia]. destruct W. lia.
    + intros L i Hi Ht [O1 O2]. split; [exact O1|]. destruct (Nat.leb_spec tw w); [lia|]. rewrite nbits_length.
      rewrite <- nat_N_Z, N2Z.inj_testbit in Ht. apply size_le in Ht. pose proof (nblocks_le w (i + 1) (N.size_nat v) Ht). lia.
  - unfold fat1. change (sim (overflow (nblocks w (length (@nil bool)))) srel (at1 st r (Done (BitsetModel.Clear (st r)))) (fat1 g r (fb_Clear has (g r)))).
    apply s_fat1; [exact H|]. now apply s_Clear.
  - apply s_fat1; [exact H|]. now apply s_Set.
  - apply s_fat1; [exact H|]. now apply s_SetAll.
  - apply s_fat1; [exact H|]. now apply s_Set.
  - apply s_fat1; [exact H|]. now apply s_Flip.
  - apply s_fat1; [exact H|]. apply s_Resize; [apply H|]. rewrite s_resize_length. now rewrite (ComputeBlockCount_nblocks w).
  - apply s_fat1; [exact H|]. now apply s_ShiftLeft.
  - apply s_fat1; [exact H|]. now apply s_ShiftRight.
  - apply s_fat1; [exact H|]. now apply s_Reverse.
  - apply s_fat1; [exact H|]. apply s_UnboundedSet; [apply H|]. rewrite (proj2 (X r)). intros C ->. rewrite (ComputeBlockCount_nblocks w). unfold s_uset.
    destruct (Nat.ltb_spec i (length (s r))); [lia|]. rewrite !app_length, repeat_length. cbn [length]. now replace (length (s r) + (i - length (s r) + 1)) with (i + 1) by lia.
  - apply s_fat1; [exact H|]. eapply sim_mono; [| |apply s_AppendBits]; try apply H; try apply X.
    + intros O. exact O.
    + intros a b HH. apply HH.
    + rewrite app_length, nbits_length. now rewrite (proj2 (X r)).
  - now apply s_PerformsAND.
  - now apply s_PerformsOp.
  - now apply s_PerformsOp.
  - now apply s_PerformsNOT.
  - now apply s_assign.
  - now apply s_Swap.
  - apply s_fat1; [exact H|]. now apply s_SetBlock.
  - apply s_fat1; [exact H|]. apply sim_bind with eq; [now apply (s_bit_ref has cap)|]. intros p ? <-. 
    destruct k; first [now apply s_Bit_Set | now apply s_Bit_Flip | now apply s_Bit_op].
  - apply s_fat1; [exact H|]. apply s_UnboundedSet; [apply H|]. discriminate.
  - destruct W as (_ & _ & _ & HR & _). apply s_fat1; [exact H|]. apply sim_bind with (fun x y => rel (fst x) (fst y) /\ snd x = snd y).
    + apply s_Write; [apply H | apply X |]. rewrite (proj2 (X r)). intros k Hk [O1 O2]. split; [exact O1|].
      rewrite app_length, firstn_length, skipn_length, stream_length.
      pose proof (nblocks_le w (length (s r) + k) (length (s r) + Nat.min n (8 * length mem - (8 * ptr + offset))) ltac:(lia)). eapply Nat.lt_le_trans; [exact O2 | exact H0].
    + intros [b x] [b' x'] [R1 _]. now apply sim_done.
Qed.

(** What the container can hold. *)
Definition holdable (n : nat) : bool := has || (n <=? w * cap).

Lemma holdable_spec n : holdable n = true <-> ~ overflow (nblocks w n).
Proof.
  unfold holdable, FixedBitsetProofs.overflow. destruct has; cbn [orb]; [split; [intros _ [C _]; discriminate | reflexivity]|].
  destruct (nblocks_spec w n) as [N1 N2]. rewrite Nat.leb_le. split.
  - intros L [_ C]. pose proof (wmul_mono w (cap + 1) (nblocks w n) ltac:(lia)). lia.
  - intros C. assert (L : nblocks w n <= cap) by (apply Nat.nlt_ge; intros Q; apply C; auto). pose proof (wmul_mono w _ _ L). lia.
Qed.

(** The specification: as for Bitset, and failing when the written bitset becomes too large. *)
Fixpoint bounded_run (st : nat -> list bool) (l : list op) : option (nat -> list bool) :=
  match l with
  | [] => Some st
  | o :: r => match spec_step w st o with
              | Some st' => if holdable (length (st' (written o))) then bounded_run st' r else None
              | None => None
              end
  end.
Fixpoint bounded_wf (st : nat -> list bool) (l : list op) : Prop :=
  match l with
  | [] => True
  | o :: r => wf_op w st o /\ distinct o /\ match spec_step w st o with
      | Some st' => if holdable (length (st' (written o))) then bounded_wf st' r else True
      | None => True
      end
  end.

Lemma rel_fits b g l : rel b g -> repr w b l -> ~ overflow (nblocks w (length l)).
Proof.
  intros [HB _] (HC & HL & _) [O1 O2]. destruct (w_fits has cap _ _ HB) as [F|F]; [congruence | lia].
Qed.

Lemma bounded_sim ops : forall st g s, repr_all w st s -> srel st g -> bounded_wf s ops ->
  match bounded_run s ops with
  | Some s' => exists st' g', run w st ops = Done st' /\ repr_all w st' s' /\ frun g ops = Done g' /\ srel st' g'
  | None => frun g ops = Fault FAssert
  end.
Proof.
  induction ops as [|o ops IH]; intros st g s R H W; cbn [run frun bounded_run bounded_wf] in *; [eauto 6|].
  destruct W as (W1 & W2 & W3). pose proof (step_repr w st s o R W1) as S. destruct (spec_step w s o) as [s'|] eqn:E.
  - destruct S as (st' & D & R'). pose proof (step_sim st g s o s' R H W1 W2 E) as M. rewrite D in *. cbn [bind].
    destruct M as [(g' & Dg & H')|[Dg O]].
    + rewrite Dg. cbn [bind]. assert (Q : holdable (length (s' (written o))) = true).
      { apply holdable_spec. now apply rel_fits with (st' (written o)) (g' (written o)). }
      rewrite Q in *. now apply IH.
    + rewrite Dg. cbn [bind]. assert (Q : holdable (length (s' (written o))) = false).
      { destruct (holdable _) eqn:Q; [|reflexivity]. apply holdable_spec in Q. contradiction. }
      now rewrite Q.
  - assert (F : fstep g o = Fault FAssert); [|now rewrite F].
    destruct o; cbn [spec_step step fstep wf_op] in *; try discriminate E.
    + destruct (digits s0) eqn:Dg; [discriminate|].
      pose proof (s_of_string has cap w True s0 (fun _ => I)) as M. rewrite (of_string_bad w) in M; [|intros C; apply digits_iff in C; congruence].
      unfold fnew. simpl in M. now rewrite M.
    + pose proof (s_Set has cap w True (st r) (g r) i v (H r)) as M. pose proof (Set_repr w (st r) (s r) i v (R r)) as Q.
      destruct (i <? length (s r)); [discriminate|]. rewrite Q in M. unfold fat1. simpl in M. now rewrite M.
    + pose proof (s_Set has cap w True (st r) (g r) i false (H r)) as M. pose proof (Set_repr w (st r) (s r) i false (R r)) as Q.
      destruct (i <? length (s r)); [discriminate|]. rewrite Q in M. unfold fat1, fb_ResetBit. simpl in M. now rewrite M.
    + pose proof (s_SetBlock has cap w True (st r) (g r) i x (H r)) as M. pose proof (set_block_repr w (st r) (s r) i x (R r)) as Q.
      destruct (w * i <? length (s r)); [discriminate|]. rewrite Q in M. unfold fat1. simpl in M. now rewrite M.
Qed.

Lemma empty_srel : srel (fun _ => empty) (fun _ => fb_empty cap).
Proof. intros r. apply empty_rel. Qed.
End H.
