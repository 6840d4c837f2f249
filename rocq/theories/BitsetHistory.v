(** Any history of operations over several bitsets; bit proxies; ordering. *)
From Verif Require Import Base CInt MathModel BitsetModel BitsetSpec BitsetBits BitsetProofs BitsetFind BitsetShift BitsetLogic BitsetInt BitsetWrite.
Open Scope nat_scope.

(** Writes through the proxy operator[] returns. *)
Inductive bit_op := BSet (v : bool) | BReset | BFlip | BOr (v : bool) | BAnd (v : bool) | BXor (v : bool) | BMinus (v : bool).

(** The operations of the class that act on bitset variables [r], [d], [a], [b]. *)
Inductive op :=
| OMake (r n : nat) (v : bool)          (* r = Bitset(n, v) *)
| OString (r : nat) (s : list N)        (* r = Bitset(s) *)
| OInt (r tw : nat) (v : N)             (* r = Bitset(value) *)
| OClear (r : nat)
| OSet (r i : nat) (v : bool)
| OSetAll (r : nat) (v : bool)
| OReset (r i : nat)
| OFlip (r : nat)
| OResize (r n : nat) (v : bool)
| OShl (r k : nat)
| OShr (r k : nat)
| OReverse (r : nat)
| OUSet (r i : nat) (v : bool)
| OAppend (r tw : nat) (v : N) (n : nat)
| OAnd (d a b : nat)
| OOr (d a b : nat)
| OXor (d a b : nat)
| ONot (d a : nat)
| OCopy (d s : nat)
| OSwap (a b : nat)
| OSetBlock (r i : nat) (x : N)
| OBit (r i : nat) (k : bit_op)         (* r[i] = v, r[i].Flip(), ... *)
| OUReset (r i : nat)
| OWrite (r : nat) (mem : list N) (ptr offset n : nat).   (* r.Write({ptr, offset}, n) *)

Section H.
Variable w : nat.

Definition at1 (st : nat -> bitset) (r : nat) (x : outcome bitset) : outcome (nat -> bitset) :=
  b <- x ;; Done (sput st r b).

(** The code. *)
Definition step (st : nat -> bitset) (o : op) : outcome (nat -> bitset) :=
  match o with
  | OMake r n v => at1 st r (make w n v)
  | OString r s => at1 st r (of_string w s)
  | OInt r tw v => at1 st r (of_int w tw (Z.of_N v))
  | OClear r => Done (sput st r (Clear (st r)))
  | OSet r i v => at1 st r (Set_ w (st r) i v)
  | OSetAll r v => at1 st r (SetAll w (st r) v)
  | OReset r i => at1 st r (ResetBit w (st r) i)
  | OFlip r => at1 st r (Flip w (st r))
  | OResize r n v => at1 st r (Resize w (st r) n v)
  | OShl r k => at1 st r (ShiftLeft w (st r) k)
  | OShr r k => at1 st r (ShiftRight w (st r) k)
  | OReverse r => at1 st r (Reverse w (st r))
  | OUSet r i v => at1 st r (UnboundedSet w (st r) i v)
  | OAppend r tw v n => at1 st r (AppendBits w tw (st r) v n)
  | OAnd d a b => PerformsAND w st d a b
  | OOr d a b => PerformsOR w st d a b
  | OXor d a b => PerformsXOR w st d a b
  | ONot d a => PerformsNOT w st d a
  | OCopy d s => Done (sput st d (st s))
  | OSwap a b => Done (Swap st a b)
  | OSetBlock r i x => at1 st r (SetBlock w (st r) i x)
  | OBit r i k => at1 st r (p <- bit_ref w (st r) i ;;
      match k with
      | BSet v => Bit_Set w (st r) p v
      | BReset => Bit_Reset w (st r) p
      | BFlip => Bit_Flip (st r) p
      | BOr v => Bit_or w (st r) p v
      | BAnd v => Bit_and w (st r) p v
      | BXor v => Bit_xor w (st r) p v
      | BMinus v => Bit_minus w (st r) p v
      end)
  | OUReset r i => at1 st r (UnboundedReset w (st r) i)
  | OWrite r mem ptr offset n => at1 st r (' (b, _) <- Write w mem (st r) (ptr, offset) n ;; Done b)
  end.

Fixpoint run (st : nat -> bitset) (l : list op) : outcome (nat -> bitset) :=
  match l with [] => Done st | o :: r => st' <- step st o ;; run st' r end.

(** The specification: boolean sequences; [None] stands for a failed assertion. *)
Definition lput (st : nat -> list bool) (d : nat) (l : list bool) : nat -> list bool := fun r => if r =? d then l else st r.
Definition digits (s : list N) : bool := forallb (fun c => (c =? 48)%N || (c =? 49)%N) s.
Definition spec_step (st : nat -> list bool) (o : op) : option (nat -> list bool) :=
  match o with
  | OMake r n v => Some (lput st r (repeat v n))
  | OString r s => if digits s then Some (lput st r (rev (map (fun c => (c =? 49)%N) s))) else None
  | OInt r tw v => Some (lput st r (if tw <=? w then nbits tw v else nbits (N.size_nat v) v))
  | OClear r => Some (lput st r [])
  | OSet r i v => if i <? length (st r) then Some (lput st r (s_set (st r) i v)) else None
  | OSetAll r v => Some (lput st r (s_fill (st r) v))
  | OReset r i => if i <? length (st r) then Some (lput st r (s_set (st r) i false)) else None
  | OFlip r => Some (lput st r (s_flip (st r)))
  | OResize r n v => Some (lput st r (s_resize (st r) n v))
  | OShl r k => Some (lput st r (s_shl (st r) k))
  | OShr r k => Some (lput st r (s_shr (st r) k))
  | OReverse r => Some (lput st r (rev (st r)))
  | OUSet r i v => Some (lput st r (s_uset (st r) i v))
  | OAppend r tw v n => Some (lput st r (st r ++ nbits n v))
  | OAnd d a b => Some (lput st d (s_zip andb (st a) (st b)))
  | OOr d a b => Some (lput st d (s_zip orb (st a) (st b)))
  | OXor d a b => Some (lput st d (s_zip xorb (st a) (st b)))
  | ONot d a => Some (lput st d (s_flip (st a)))
  | OCopy d s => Some (lput st d (st s))
  | OSwap a b => Some (lput (lput st a (st b)) b (st a))
  | OSetBlock r i x =>
      if w * i <? length (st r) then
        Some (lput st r (map (fun k => if k / w =? i then N.testbit x (N.of_nat (k mod w)) else sbit (st r) k) (seq 0 (length (st r)))))
      else None
  | OBit r i k =>
      let old := sbit (st r) i in
      Some (lput st r (s_set (st r) i match k with
        | BSet v => v | BReset => false | BFlip => negb old | BOr v => old || v | BAnd v => old && v | BXor v => xorb old v | BMinus v => old && negb v
        end))
  | OUReset r i => Some (lput st r (if i <? length (st r) then s_set (st r) i false else st r))
  | OWrite r mem ptr offset n => Some (lput st r (st r ++ firstn n (skipn (8 * ptr + offset) (stream mem))))
  end.

(** Side conditions of the calls: integers fit their type, AppendBits gets no bit above the requested ones and does not
    end on a block boundary after pushing a block of 32 or 64 bits (see AppendBits_full), operator[] gets an index in range, Write a valid buffer
    without stray bits in its last byte (see C12). *)
Definition wf_op (st : nat -> list bool) (o : op) : Prop :=
  match o with
  | OInt r tw v => 0 < tw /\ (v < 2 ^ N.of_nat tw)%N
  | OAppend r tw v n => 0 < tw /\ (v < 2 ^ N.of_nat tw)%N /\ (v < 2 ^ N.of_nat n)%N /\
      (w < 32 \/ n <= (w - length (st r) mod w) mod w \/ (length (st r) + n) mod w <> 0)
  | OBit r i _ => i < length (st r)
  | OWrite r mem ptr offset n => Forall (fun x => (x < 256)%N) mem /\ offset < 8 /\ 0 < offset + n /\ 8 * ptr + offset + n <= 8 * length mem /\
      no_stray w mem (length (st r)) ptr offset n
  | _ => True
  end.

Fixpoint spec_run (st : nat -> list bool) (l : list op) : option (nat -> list bool) :=
  match l with [] => Some st | o :: r => match spec_step st o with Some st' => spec_run st' r | None => None end end.
Fixpoint wf_run (st : nat -> list bool) (l : list op) : Prop :=
  match l with [] => True | o :: r => wf_op st o /\ match spec_step st o with Some st' => wf_run st' r | None => True end end.

Context {Hw : width w}.
Let Wpos : 0 < w := width_pos w Hw.

Definition repr_all (st : nat -> bitset) (s : nat -> list bool) : Prop := forall r, repr w (st r) (s r).

Lemma repr_put st s r b l : repr_all st s -> repr w b l -> repr_all (sput st r b) (lput s r l).
Proof. intros H Hr q. unfold sput, lput. destruct (q =? r); auto. Qed.

Lemma at1_repr st s r x l : repr_all st s -> (exists b, x = Done b /\ repr w b l) ->
  exists st', at1 st r x = Done st' /\ repr_all st' (lput s r l).
Proof. intros H (b & -> & R). eexists. split; [reflexivity|]. now apply repr_put. Qed.

Lemma logic_repr st s d l st' : repr_all st s -> repr w (st' d) l -> (forall r, r <> d -> st' r = st r) ->
  repr_all st' (lput s d l).
Proof. intros H R O q. unfold lput. destruct (Nat.eqb_spec q d) as [->|Hq]; [exact R|]. rewrite O by assumption. apply H. Qed.

Lemma size_bits v : forall i, sbit (nbits (N.size_nat v) v) i = N.testbit v (N.of_nat i).
Proof.
  intros i. rewrite sbit_nbits. destruct (Nat.ltb_spec i (N.size_nat v)) as [H|H]; [reflexivity|].
  symmetry. apply (proj1 (lt_pow2_bits v (N.of_nat (N.size_nat v)))); [|lia].
  destruct v as [|p]; [now vm_compute|]. clear H. cbn [N.size_nat].
  pose proof (Pos.size_gt p) as G.
  replace (N.of_nat (Pos.size_nat p)) with (N.pos (Pos.size p)); [|].
  - exact G.
  - clear. induction p as [p IH|p IH|]; cbn [Pos.size Pos.size_nat]; [| |reflexivity]; rewrite Nat2N.inj_succ, <- IH; reflexivity.
Qed.

Lemma size_top v : N.size_nat v = 0 \/ N.testbit v (N.of_nat (N.size_nat v - 1)) = true.
Proof.
  destruct v as [|p]; [now left|]. right. cbn [N.size_nat].
  induction p as [p IH|p IH|]; cbn [Pos.size_nat]; [| |reflexivity].
  - replace (S (Pos.size_nat p) - 1) with (S (Pos.size_nat p - 1)) by (destruct p; cbn [Pos.size_nat]; lia).
    rewrite Nat2N.inj_succ. change (N.pos p~1) with (2 * N.pos p + 1)%N. rewrite N.testbit_odd_succ by lia. exact IH.
  - replace (S (Pos.size_nat p) - 1) with (S (Pos.size_nat p - 1)) by (destruct p; cbn [Pos.size_nat]; lia).
    rewrite Nat2N.inj_succ. change (N.pos p~0) with (2 * N.pos p)%N. rewrite N.testbit_even_succ by lia. exact IH.
Qed.

Lemma wide_unique l v : (forall i, sbit l i = N.testbit v (N.of_nat i)) -> (l = [] \/ sbit l (length l - 1) = true) ->
  l = nbits (N.size_nat v) v.
Proof.
  intros HB HT. assert (HL : length l = N.size_nat v).
  { destruct (Nat.lt_trichotomy (length l) (N.size_nat v)) as [C|[C|C]]; [exfalso | exact C | exfalso].
    - destruct (size_top v) as [Z|T]; [lia|]. rewrite <- HB, sbit_high in T by lia. discriminate.
    - destruct HT as [->|T]; [simpl in C; lia|]. rewrite HB, <- size_bits, sbit_high in T; [discriminate|].
      rewrite nbits_length. lia. }
  apply (list_ext false).
  - now rewrite nbits_length.
  - intros i _. change (sbit l i = sbit (nbits (N.size_nat v) v) i). now rewrite size_bits.
Qed.

Lemma digits_iff s : digits s = true <-> Forall (fun c => c = 48%N \/ c = 49%N) s.
Proof.
  unfold digits. rewrite forallb_forall, Forall_forall. split; intros H c Hc; specialize (H c Hc).
  - apply orb_prop in H as [H|H]; apply N.eqb_eq in H; auto.
  - destruct H as [->| ->]; reflexivity.
Qed.

(** ** Bit proxies *)
Lemma bit_ref_done b l i : repr w b l -> i < length l -> bit_ref w b i = Done (i / w, N.shiftl 1 (N.of_nat (i mod w))).
Proof.
  intros R Hi. pose proof (block_of w b l i R Hi) as Hb. unfold bit_ref, require.
  destruct (Nat.ltb_spec (GetBlockIndex w i) (length (blocks b))); [|lia]. cbn [bind]. rewrite (mask_done w). reflexivity.
Qed.

Lemma Bit_Test_repr b l i r : repr w b l -> i < length l -> bit_ref w b i = Done r -> Bit_Test b r = Done (sbit l i).
Proof.
  intros R Hi E. rewrite (bit_ref_done b l i R Hi) in E. injection E as <-. pose proof R as (HC & HL & HS & HB).
  pose proof (block_of w b l i R Hi) as Hb. unfold GetBlockIndex in Hb.
  unfold Bit_Test. cbn [fst snd]. rewrite (vget_done _ _ 0%N) by assumption. cbn [bind].
  rewrite land_mask_testbit. fold (lbit w (blocks b) i). now rewrite HB.
Qed.

Lemma Bit_Set_repr b l i r v : repr w b l -> i < length l -> bit_ref w b i = Done r ->
  exists b', Bit_Set w b r v = Done b' /\ repr w b' (upd l i v).
Proof.
  intros R Hi E. rewrite (bit_ref_done b l i R Hi) in E. injection E as <-.
  pose proof (Set_done w b l i v R Hi) as (b' & E' & R').
  unfold Set_ in E'. pose proof R as (HC & HL & HS & HB). rewrite HC in E'.
  destruct (Nat.ltb_spec i (length l)); [|lia]. cbn [assert bind] in E'. rewrite (mask_done w) in E'.
  unfold Bit_Set. cbn [fst snd]. exists b'. split; [|exact R']. rewrite HC. unfold GetBlockIndex in E'. exact E'.
Qed.

Lemma Bit_Flip_repr b l i r : repr w b l -> i < length l -> bit_ref w b i = Done r ->
  exists b', Bit_Flip b r = Done b' /\ repr w b' (upd l i (negb (sbit l i))).
Proof.
  intros R Hi E. rewrite (bit_ref_done b l i R Hi) in E. injection E as <-. pose proof R as (HC & HL & HS & HB).
  pose proof (block_of w b l i R Hi) as Hb. unfold GetBlockIndex in Hb. destruct (divmod_w w i) as [D1 D2].
  unfold Bit_Flip. cbn [fst snd]. rewrite (vget_done _ _ 0%N) by assumption. cbn [bind].
  rewrite vset_done by assumption. cbn [bind]. eexists. split; [reflexivity|].
  apply (repr_upd_bit w); auto.
  - apply lxor_lt; [now apply (small_nth w)|]. rewrite N.shiftl_1_l. apply N.pow_lt_mono_r; lia.
  - intros j Hj. rewrite N.lxor_spec, mask1_bits.
    destruct (Nat.eqb_spec j (i mod w)) as [->|Ne].
    + rewrite N.eqb_refl, xorb_true_r. f_equal. fold (lbit w (blocks b) i). apply HB.
    + destruct (N.eqb_spec (N.of_nat j) (N.of_nat (i mod w))); [lia | apply xorb_false_r].
Qed.

Lemma Bit_ops_repr b l i r v : repr w b l -> i < length l -> bit_ref w b i = Done r ->
  (exists b', Bit_or w b r v = Done b' /\ repr w b' (upd l i (sbit l i || v))) /\
  (exists b', Bit_and w b r v = Done b' /\ repr w b' (upd l i (sbit l i && v))) /\
  (exists b', Bit_xor w b r v = Done b' /\ repr w b' (upd l i (xorb (sbit l i) v))) /\
  (exists b', Bit_minus w b r v = Done b' /\ repr w b' (upd l i (sbit l i && negb v))).
Proof.
  intros R Hi E. unfold Bit_or, Bit_and, Bit_xor, Bit_minus. rewrite (Bit_Test_repr b l i r R Hi E). cbn [bind].
  repeat split; destruct v; cbn [negb]; rewrite ?orb_true_r, ?orb_false_r, ?andb_true_r, ?andb_false_r, ?xorb_true_r, ?xorb_false_r;
    now apply Bit_Set_repr.
Qed.

(** ** Histories *)
Lemma bit_op_repr b l i k : repr w b l -> i < length l ->
  exists b', (p <- bit_ref w b i ;;
      match k with
      | BSet v => Bit_Set w b p v
      | BReset => Bit_Reset w b p
      | BFlip => Bit_Flip b p
      | BOr v => Bit_or w b p v
      | BAnd v => Bit_and w b p v
      | BXor v => Bit_xor w b p v
      | BMinus v => Bit_minus w b p v
      end) = Done b' /\
    repr w b' (upd l i match k with
        | BSet v => v | BReset => false | BFlip => negb (sbit l i) | BOr v => sbit l i || v | BAnd v => sbit l i && v
        | BXor v => xorb (sbit l i) v | BMinus v => sbit l i && negb v
        end).
Proof.
  intros R Hi. pose proof (bit_ref_done b l i R Hi) as E. rewrite E. cbn [bind].
  destruct k as [v| | |v|v|v|v].
  - exact (Bit_Set_repr b l i _ v R Hi E).
  - exact (Bit_Set_repr b l i _ false R Hi E).
  - exact (Bit_Flip_repr b l i _ R Hi E).
  - apply (Bit_ops_repr b l i _ v R Hi E).
  - apply (Bit_ops_repr b l i _ v R Hi E).
  - apply (Bit_ops_repr b l i _ v R Hi E).
  - apply (Bit_ops_repr b l i _ v R Hi E).
Qed.

Lemma set_block_repr b l i x : repr w b l ->
  if w * i <? length l then exists b', SetBlock w b i x = Done b' /\
    repr w b' (map (fun k => if k / w =? i then N.testbit x (N.of_nat (k mod w)) else sbit l k) (seq 0 (length l)))
  else SetBlock w b i x = Fault FAssert.
Proof.
  intros R. pose proof (SetBlock_repr w b l i x R) as S. destruct (nblocks_spec w (length l)) as [N1 N2].
  assert (E : (i <? nblocks w (length l)) = (w * i <? length l)).
  { destruct (Nat.ltb_spec i (nblocks w (length l))), (Nat.ltb_spec (w * i) (length l)); try reflexivity; exfalso; nia. }
  rewrite E in S. destruct (w * i <? length l); [|exact S]. destruct S as (b' & D & R'). exists b'. split; [exact D|].
  replace (map _ _) with (s_setblock w l i x); [exact R'|]. apply map_ext. intros k. destruct (divmod_w w k) as [K1 K2].
  destruct (Nat.eqb_spec (k / w) i) as [Q|Q].
  - subst i. destruct (Nat.leb_spec (w * (k / w)) k); [|lia]. destruct (Nat.ltb_spec k (w * (k / w) + w)); [|lia]. cbn [andb]. do 2 f_equal. lia.
  - destruct (Nat.leb_spec (w * i) k), (Nat.ltb_spec k (w * i + w)); try reflexivity. exfalso. apply Q. nia.
Qed.

Lemma step_repr st s o : repr_all st s -> wf_op s o ->
  match spec_step s o with
  | Some s' => exists st', step st o = Done st' /\ repr_all st' s'
  | None => step st o = Fault FAssert
  end.
Proof.
  intros H WF. destruct o; cbn [spec_step step wf_op] in *.
  - apply at1_repr; [exact H | apply (make_repr w)].
  - destruct (digits s0) eqn:D.
    + apply at1_repr; [exact H|]. apply (of_string_repr w). now apply digits_iff.
    + rewrite (of_string_bad w); [reflexivity|]. intros C. apply digits_iff in C. congruence.
  - destruct WF as [H0 Hv]. apply at1_repr; [exact H|]. destruct (Nat.leb_spec tw w) as [L|L].
    + now apply (of_int_repr_small w).
    + destruct (of_int_repr_wide w tw (Z.of_N v) L) as (b & l & E & R & A & B & C). exists b. split; [exact E|].
      rewrite <- (wide_unique l v); [exact R | | exact C]. intros i. rewrite B, <- nat_N_Z, N2Z.inj_testbit.
      destruct (Nat.ltb_spec i tw); [reflexivity|]. symmetry. apply (proj1 (lt_pow2_bits v (N.of_nat tw)) Hv). lia.
  - eexists. split; [reflexivity|]. apply repr_put; [exact H | apply (repr_empty w)].
  - pose proof (Set_repr w (st r) (s r) i v (H r)) as S. destruct (i <? length (s r)).
    + apply at1_repr; [exact H | exact S].
    + now rewrite S.
  - apply at1_repr; [exact H | now apply (SetAll_repr w)].
  - unfold ResetBit. pose proof (Set_repr w (st r) (s r) i false (H r)) as S. destruct (i <? length (s r)).
    + apply at1_repr; [exact H | exact S].
    + now rewrite S.
  - apply at1_repr; [exact H | now apply (Flip_repr w)].
  - apply at1_repr; [exact H | now apply (Resize_repr w)].
  - apply at1_repr; [exact H | now apply (ShiftLeft_repr w)].
  - apply at1_repr; [exact H | now apply (ShiftRight_repr w)].
  - apply at1_repr; [exact H | now apply (Reverse_repr w)].
  - apply at1_repr; [exact H | now apply (UnboundedSet_repr w)].
  - destruct WF as (H0 & Hv & Hn & C). apply at1_repr; [exact H|]. apply (AppendBits_repr w); auto.
    + intros j Hj. apply (proj1 (lt_pow2_bits v (N.of_nat n)) Hn). lia.
    + set (len := length (s r)) in *.
      assert (F : free_bits w len = (w - len mod w) mod w).
      { destruct (free_bits_spec w len) as [(A & B)|(A & B)]; rewrite B.
        - rewrite A, Nat.sub_0_r, Nat.mod_same by lia. reflexivity.
        - symmetry. apply Nat.mod_small. lia. }
      rewrite F. destruct C as [C|[C|C]]; auto. destruct (Nat.le_gt_cases n ((w - len mod w) mod w)) as [Q|Q]; auto.
      right. right. rewrite <- F in *. intros Z. apply C.
      destruct (nblocks_spec w len) as [N1 N2].
      replace (len + n) with ((n - free_bits w len) + nblocks w len * w) by (unfold free_bits in *; lia).
      now rewrite Nat.mod_add by lia.
  - destruct (PerformsAND_repr w st d a b (s a) (s b) (H a) (H b)) as (st' & E & R & O). exists st'. split; [exact E|]. now apply logic_repr with st.
  - destruct (PerformsOR_repr w st d a b (s a) (s b) (H a) (H b)) as (st' & E & R & O). exists st'. split; [exact E|]. now apply logic_repr with st.
  - destruct (PerformsXOR_repr w st d a b (s a) (s b) (H a) (H b)) as (st' & E & R & O). exists st'. split; [exact E|]. now apply logic_repr with st.
  - destruct (PerformsNOT_repr w st d a (s a) (H a)) as (st' & E & R & O). exists st'. split; [exact E|]. now apply logic_repr with st.
  - eexists. split; [reflexivity|]. apply repr_put; [exact H | apply H].
  - eexists. split; [reflexivity|]. unfold Swap. apply repr_put; [apply repr_put; [exact H | apply H] | apply H].
  - pose proof (set_block_repr (st r) (s r) i x (H r)) as S. destruct (w * i <? length (s r)).
    + apply at1_repr; [exact H | exact S].
    + now rewrite S.
  - apply at1_repr; [exact H | now apply bit_op_repr].
  - apply at1_repr; [exact H|]. exact (UnboundedSet_repr w (st r) (s r) i false (H r)).
  - destruct WF as (HM & Hs & H0 & HR & NS). apply at1_repr; [exact H|].
    destruct (Write_repr w mem (st r) (s r) ptr offset n (H r) HM Hs H0 HR NS) as (b' & p' & E & _ & R').
    exists b'. split; [now rewrite E|]. rewrite slice_firstn_skipn in R' by (rewrite stream_length; lia). exact R'.
Qed.

Lemma run_repr ops : forall st s, repr_all st s -> wf_run s ops ->
  match spec_run s ops with
  | Some s' => exists st', run st ops = Done st' /\ repr_all st' s'
  | None => run st ops = Fault FAssert
  end.
Proof.
  induction ops as [|o ops IH]; intros st s H WF; cbn [run spec_run wf_run] in *; [eauto|].
  destruct WF as [W1 W2]. pose proof (step_repr st s o H W1) as S. destruct (spec_step s o) as [s'|].
  - destruct S as (st' & -> & R). cbn [bind]. now apply IH.
  - now rewrite S.
Qed.

Lemma empty_all : repr_all (fun _ => empty) (fun _ => []).
Proof. intros r. apply (repr_empty w). Qed.

(** ** operator< *)
Lemma less_common_done a b ls : (forall i, In i ls -> i < length (blocks a) /\ i < length (blocks b)) ->
  less_common a b ls = Done (existsb (fun i => (nth i (blocks a) 0 <? nth i (blocks b) 0)%N) ls).
Proof.
  induction ls as [|i ls IH]; intros Hin; cbn [less_common existsb]; [reflexivity|].
  rewrite !(GetBlock_done w) by (apply Hin; simpl; auto). cbn [bind].
  destruct (N.ltb _ _); cbn [orb]; [reflexivity|]. apply IH. intros j Hj. apply Hin. simpl; auto.
Qed.

(** With the same number of blocks [a < b] holds as soon as one block of [a] is below the one of [b]; otherwise the
    first access is out of range. *)
Lemma less_exact a b : less a b =
  if length (blocks a) =? length (blocks b)
  then Done (existsb (fun i => (nth i (blocks a) 0 <? nth i (blocks b) 0)%N) (rev (range 0 (length (blocks a)))))
  else Fault FAssert.
Proof.
  unfold less, GetBlockCount. destruct (Nat.ltb_spec (length (blocks b)) (length (blocks a))) as [L|L].
  - destruct (Nat.eqb_spec (length (blocks a)) (length (blocks b))); [lia|].
    destruct (Nat.ltb_spec (length (blocks b)) (length (blocks a))); [|lia].
    unfold GetBlock. destruct (Nat.ltb_spec (length (blocks a)) (length (blocks a))); [lia | reflexivity].
  - destruct (Nat.eqb_spec (length (blocks a)) (length (blocks b))) as [E|E].
    + destruct (Nat.ltb_spec (length (blocks a)) (length (blocks b))); [lia|]. cbn [bind].
      rewrite less_common_done; [reflexivity|]. intros i Hi. apply in_rev in Hi. apply in_seq in Hi. lia.
    + destruct (Nat.ltb_spec (length (blocks a)) (length (blocks b))); [|lia].
      unfold GetBlock. destruct (Nat.ltb_spec (length (blocks b)) (length (blocks b))); [lia | reflexivity].
Qed.

(** On bitsets of one block it is the numerical order. *)
Lemma less_one_block a b la lb : repr w a la -> repr w b lb -> 0 < length la <= w -> 0 < length lb <= w ->
  less a b = Done (s_value la <? s_value lb)%N.
Proof.
  intros Ra Rb La Lb.
  assert (V : forall x l, repr w x l -> 0 < length l <= w -> blocks x = [s_value l]).
  { intros x l (HC & HL & HS & HB) H.
    assert (N1 : nblocks w (length l) = 1).
    { unfold nblocks. replace (length l + w - 1) with (w * 1 + (length l - 1)) by lia. apply (div_unique_w w). lia. }
    rewrite N1 in HL. destruct (blocks x) as [|y [|]] eqn:Eb; try discriminate. f_equal.
    apply testbit_ext_lt with (N.of_nat w).
    - inversion HS; auto.
    - apply N.lt_le_trans with (2 ^ N.of_nat (length l))%N; [apply s_value_lt|]. apply N.pow_le_mono_r; lia.
    - intros i Hi. replace i with (N.of_nat (N.to_nat i)) by lia. rewrite s_value_bits, <- HB.
      unfold lbit. rewrite Nat.div_small, Nat.mod_small by lia. reflexivity. }
  rewrite less_exact, (V a la Ra La), (V b lb Rb Lb). cbn. now destruct (_ <? _)%N.
Qed.

End H.
