(** Property C151: expressions of bitsets and the laws of Boolean algebra. *)
From Verif Require Import Base CInt MathModel BitsetModel BitsetSpec BitsetBits BitsetProofs BitsetFind BitsetShift BitsetLogic BitsetInt BitsetWrite BitsetHistory PropBitset BitsetExprSpec BitsetExprModel.
Open Scope nat_scope.

Lemma op_not_repr w a la : width w -> repr w a la -> exists r, op_not w a = Done r /\ repr w r (s_flip la).
Proof. intros Hw R. destruct (PerformsNOT_repr w (operands a a) 0 1 la R) as (st & E & R' & _). exists (st 0). unfold op_not. rewrite E. split; [reflexivity | exact R']. Qed.
Lemma op_and_repr w a b la lb : width w -> repr w a la -> repr w b lb -> exists r, op_and w a b = Done r /\ repr w r (s_zip andb la lb).
Proof. intros Hw Ra Rb. destruct (PerformsAND_repr w (operands a b) 0 1 2 la lb Ra Rb) as (st & E & R' & _). exists (st 0). unfold op_and. rewrite E. split; [reflexivity | exact R']. Qed.
Lemma op_or_repr w a b la lb : width w -> repr w a la -> repr w b lb -> exists r, op_or w a b = Done r /\ repr w r (s_zip orb la lb).
Proof. intros Hw Ra Rb. destruct (PerformsOR_repr w (operands a b) 0 1 2 la lb Ra Rb) as (st & E & R' & _). exists (st 0). unfold op_or. rewrite E. split; [reflexivity | exact R']. Qed.
Lemma op_xor_repr w a b la lb : width w -> repr w a la -> repr w b lb -> exists r, op_xor w a b = Done r /\ repr w r (s_zip xorb la lb).
Proof. intros Hw Ra Rb. destruct (PerformsXOR_repr w (operands a b) 0 1 2 la lb Ra Rb) as (st & E & R' & _). exists (st 0). unfold op_xor. rewrite E. split; [reflexivity | exact R']. Qed.

(** The bits of the result, computed on lists. *)
Fixpoint elist (ls : nat -> list bool) (e : bexp) : list bool :=
  match e with
  | Var x => ls x
  | And a b => s_zip andb (elist ls a) (elist ls b)
  | Or a b => s_zip orb (elist ls a) (elist ls b)
  | Xor a b => s_zip xorb (elist ls a) (elist ls b)
  | Not a => s_flip (elist ls a)
  end.
Lemma eval_repr w env ls e : width w -> (forall x, occurs x e -> repr w (env x) (ls x)) -> exists r, eval w env e = Done r /\ repr w r (elist ls e).
Proof.
  intros Hw. induction e as [x|a IHa b IHb|a IHa b IHb|a IHa b IHb|a IHa]; intros R; cbn [eval elist occurs] in *.
  - exists (env x). split; [reflexivity | now apply R].
  - destruct IHa as (x & -> & Rx); [intros y Hy; apply R; now left|]. destruct IHb as (y & -> & Ry); [intros y Hy; apply R; now right|]. cbn [bind]. now apply op_and_repr.
  - destruct IHa as (x & -> & Rx); [intros y Hy; apply R; now left|]. destruct IHb as (y & -> & Ry); [intros y Hy; apply R; now right|]. cbn [bind]. now apply op_or_repr.
  - destruct IHa as (x & -> & Rx); [intros y Hy; apply R; now left|]. destruct IHb as (y & -> & Ry); [intros y Hy; apply R; now right|]. cbn [bind]. now apply op_xor_repr.
  - destruct IHa as (x & -> & Rx); [exact R|]. cbn [bind]. now apply op_not_repr.
Qed.
Lemma truth_and v a b : truth v (And a b) = andb (truth v a) (truth v b).
Proof. reflexivity. Qed.
Lemma truth_xor v a b : truth v (Xor a b) = xorb (truth v a) (truth v b).
Proof. cbn [truth]. destruct (truth v a), (truth v b); reflexivity. Qed.
Lemma sbit_flip l i : i < length l -> sbit (s_flip l) i = negb (sbit l i).
Proof. intros H. unfold sbit, s_flip. rewrite (nth_indep _ false (negb false)) by (now rewrite map_length). apply map_nth. Qed.
Lemma elist_same ls n e : (forall x, occurs x e -> length (ls x) = n) -> length (elist ls e) = n /\ forall i, i < n -> sbit (elist ls e) i = truth (fun x => sbit (ls x) i) e.
Proof.
  induction e as [x|a IHa b IHb|a IHa b IHb|a IHa b IHb|a IHa]; intros R; cbn [elist occurs] in *.
  - split; [now apply R | reflexivity].
  - destruct IHa as (La & Ba); [intros y Hy; apply R; now left|]. destruct IHb as (Lb & Bb); [intros y Hy; apply R; now right|]. rewrite s_zip_length, La, Lb, Nat.max_id. split; [reflexivity|]. intros i Hi. rewrite sbit_zip, Ba, Bb by (reflexivity || exact Hi). reflexivity.
  - destruct IHa as (La & Ba); [intros y Hy; apply R; now left|]. destruct IHb as (Lb & Bb); [intros y Hy; apply R; now right|]. rewrite s_zip_length, La, Lb, Nat.max_id. split; [reflexivity|]. intros i Hi. rewrite sbit_zip, Ba, Bb by (reflexivity || exact Hi). reflexivity.
  - destruct IHa as (La & Ba); [intros y Hy; apply R; now left|]. destruct IHb as (Lb & Bb); [intros y Hy; apply R; now right|]. rewrite s_zip_length, La, Lb, Nat.max_id. split; [reflexivity|]. intros i Hi. rewrite sbit_zip, Ba, Bb, truth_xor by (reflexivity || exact Hi). reflexivity.
  - destruct IHa as (La & Ba); [exact R|]. split; [unfold s_flip; now rewrite map_length|]. intros i Hi. rewrite sbit_flip by lia. now rewrite Ba.
Qed.
Lemma elist_no_not ls e : no_not e -> forall i, sbit (elist ls e) i = truth (fun x => sbit (ls x) i) e.
Proof.
  induction e as [x|a IHa b IHb|a IHa b IHb|a IHa b IHb|a IHa]; intros H i; cbn [elist no_not] in *; [reflexivity | destruct H as (Ha & Hb).. | contradiction].
  - rewrite sbit_zip, IHa, IHb by (reflexivity || assumption). reflexivity.
  - rewrite sbit_zip, IHa, IHb by (reflexivity || assumption). reflexivity.
  - rewrite sbit_zip, IHa, IHb, truth_xor by (reflexivity || assumption). reflexivity.
Qed.
Lemma elist_length ls e : (exists x, occurs x e /\ length (elist ls e) = length (ls x)) /\ forall x, occurs x e -> length (ls x) <= length (elist ls e).
Proof.
  assert (Z : forall f a b, ((exists x, occurs x a /\ length (elist ls a) = length (ls x)) /\ forall x, occurs x a -> length (ls x) <= length (elist ls a)) -> ((exists x, occurs x b /\ length (elist ls b) = length (ls x)) /\ forall x, occurs x b -> length (ls x) <= length (elist ls b)) ->
    (exists x, (occurs x a \/ occurs x b) /\ length (s_zip f (elist ls a) (elist ls b)) = length (ls x)) /\ forall x, occurs x a \/ occurs x b -> length (ls x) <= length (s_zip f (elist ls a) (elist ls b))).
  { intros f a b ((x & Ox & Ex) & Ha) ((y & Oy & Ey) & Hb). rewrite s_zip_length. split.
    - destruct (Nat.max_spec (length (elist ls a)) (length (elist ls b))) as [(_ & ->)|(_ & ->)]; [exists y | exists x]; auto.
    - intros z [Hz|Hz]; [specialize (Ha z Hz) | specialize (Hb z Hz)]; lia. }
  induction e as [x|a IHa b IHb|a IHa b IHb|a IHa b IHb|a IHa]; cbn [elist occurs]; try (apply Z; assumption).
  - split; [exists x; split; reflexivity | intros y ->; lia].
  - unfold s_flip. now rewrite map_length.
Qed.
Lemma same_bits (l m : list bool) : length l = length m -> (forall i, i < length l -> sbit l i = sbit m i) -> l = m.
Proof. intros H B. apply nth_ext with (d := false) (d' := false); [exact H | exact B]. Qed.

(** *** Expressions *)
(** Every expression has a value; its size is that of the greatest operand. *)
Theorem C151_defined w env ls e : width w -> (forall x, occurs x e -> repr w (env x) (ls x)) ->
  exists r l, eval w env e = Done r /\ repr w r l /\ (exists x, occurs x e /\ length l = length (ls x)) /\ forall x, occurs x e -> length (ls x) <= length l.
Proof. intros Hw R. destruct (eval_repr w env ls e Hw R) as (r & E & R'). exists r, (elist ls e). split; [exact E|]. split; [exact R' | apply elist_length]. Qed.

(** Operands of one size: bit by bit the value of the expression; every law of Boolean algebra holds, and both sides are the same bitset. *)
Theorem C151_bits w env ls e n : width w -> (forall x, occurs x e -> repr w (env x) (ls x) /\ length (ls x) = n) ->
  exists r, eval w env e = Done r /\ GetSize r = n /\ forall i, i < n -> Test w r i = Done (truth (fun x => nth i (ls x) false) e).
Proof.
  intros Hw R. destruct (eval_repr w env ls e Hw) as (r & E & R'); [intros x Hx; apply (R x Hx)|]. destruct (elist_same ls n e) as (L & B); [intros x Hx; apply (R x Hx)|]. exists r. split; [exact E|]. split; [rewrite <- L; apply R'|].
  intros i Hi. rewrite (Test_repr w r _ i R'), L. replace (i <? n) with true by (symmetry; now apply Nat.ltb_lt). now rewrite B.
Qed.
Theorem C151_laws w env ls e f n : width w -> (forall x, occurs x e \/ occurs x f -> repr w (env x) (ls x) /\ length (ls x) = n) -> law e f ->
  exists r, eval w env e = Done r /\ eval w env f = Done r.
Proof.
  intros Hw R HL. destruct (eval_repr w env ls e Hw) as (r & E & Re); [intros x Hx; apply R; now left|]. destruct (eval_repr w env ls f Hw) as (r' & E' & Rf); [intros x Hx; apply R; now right|].
  destruct (elist_same ls n e) as (Le & Be); [intros x Hx; apply R; now left|]. destruct (elist_same ls n f) as (Lf & Bf); [intros x Hx; apply R; now right|].
  assert (EQ : elist ls e = elist ls f) by (apply same_bits; [congruence|]; intros i Hi; rewrite Be, Bf by lia; apply HL). rewrite EQ in Re. exists r. split; [exact E|]. rewrite E'. f_equal. exact (repr_inj w r' r _ Rf Re).
Qed.
(** And nothing else does: what holds of all bitsets with one bit is a law. *)
Theorem C151_only_laws w e f : width w ->
  (forall env, (forall x, exists b, repr w (env x) [b]) -> eval w env e = eval w env f) -> law e f.
Proof.
  intros Hw H v. set (env := fun x => match make w 1 (v x) with Done b => b | Fault _ => empty end).
  assert (R : forall x, repr w (env x) [v x]) by (intros x; unfold env; destruct (make_repr w 1 (v x)) as (b & -> & R); exact R).
  destruct (C151_bits w env (fun x => [v x]) e 1 Hw) as (r & E & _ & B); [intros x _; split; [apply R | reflexivity]|]. destruct (C151_bits w env (fun x => [v x]) f 1 Hw) as (r' & E' & _ & B'); [intros x _; split; [apply R | reflexivity]|].
  rewrite H, E' in E by (intros x; exists (v x); apply R). injection E as <-. specialize (B 0 ltac:(lia)). specialize (B' 0 ltac:(lia)). rewrite B in B'. cbn [nth] in B'. now injection B'.
Qed.

(** Operands of any sizes, without NOT: both sides compare equal. *)
Theorem C151_laws_without_not w env ls e f : width w -> (forall x, occurs x e \/ occurs x f -> repr w (env x) (ls x)) -> no_not e -> no_not f -> law e f ->
  exists r r', eval w env e = Done r /\ eval w env f = Done r' /\ equals r r' = Done true.
Proof.
  intros Hw R Ne Nf HL. destruct (eval_repr w env ls e Hw) as (r & E & Re); [intros x Hx; apply R; now left|]. destruct (eval_repr w env ls f Hw) as (r' & E' & Rf); [intros x Hx; apply R; now right|].
  exists r, r'. split; [exact E|]. split; [exact E'|]. destruct (equals_repr w r r' _ _ Re Rf) as (q & -> & HQ). f_equal. apply HQ. intros i. rewrite !elist_no_not by assumption. apply HL.
Qed.
(** Operands that compare equal may replace each other there. *)
Theorem C151_congruence_without_not w env env' ls ls' e : width w -> (forall x, occurs x e -> repr w (env x) (ls x) /\ repr w (env' x) (ls' x) /\ equals (env x) (env' x) = Done true) -> no_not e ->
  exists r r', eval w env e = Done r /\ eval w env' e = Done r' /\ equals r r' = Done true.
Proof.
  intros Hw R Ne. destruct (eval_repr w env ls e Hw) as (r & E & Re); [intros x Hx; apply (R x Hx)|]. destruct (eval_repr w env' ls' e Hw) as (r' & E' & Rf); [intros x Hx; apply (R x Hx)|].
  exists r, r'. split; [exact E|]. split; [exact E'|]. destruct (equals_repr w r r' _ _ Re Rf) as (q & -> & HQ). f_equal. apply HQ. intros i. rewrite !elist_no_not by assumption.
  assert (B : forall x, occurs x e -> sbit (ls x) i = sbit (ls' x) i). { intros x Hx. destruct (R x Hx) as (R1 & R2 & R3). destruct (equals_repr w _ _ _ _ R1 R2) as (p & E3 & H3). rewrite E3 in R3. injection R3 as ->. now apply H3. }
  clear - B. induction e as [x|a IHa b IHb|a IHa b IHb|a IHa b IHb|a IHa]; cbn [truth occurs] in *; [now apply B | rewrite IHa, IHb by (intros x Hx; apply B; auto); reflexivity.. | now rewrite IHa].
Qed.

(** *** Operands of different sizes and NOT *)
Definition pair_env (a b : bitset) : nat -> bitset := fun x => if x =? 0 then a else b.
Lemma compare w env ls e f : width w -> (forall x, repr w (env x) (ls x)) ->
  exists x y r, eval w env e = Done x /\ eval w env f = Done y /\ equals x y = Done r /\ (r = true <-> forall i, sbit (elist ls e) i = sbit (elist ls f) i).
Proof.
  intros Hw R. destruct (eval_repr w env ls e Hw (fun x _ => R x)) as (x & E & Re). destruct (eval_repr w env ls f Hw (fun x _ => R x)) as (y & E' & Rf). destruct (equals_repr w x y _ _ Re Rf) as (r & EQ & HQ). exists x, y, r. auto.
Qed.
Lemma sbit_flip_full l i : sbit (s_flip l) i = if i <? length l then negb (sbit l i) else false.
Proof. destruct (Nat.ltb_spec i (length l)) as [H|H]; [now apply sbit_flip|]. apply sbit_high. unfold s_flip. now rewrite map_length. Qed.
Lemma pair_repr w a b la lb : repr w a la -> repr w b lb -> forall x, repr w (pair_env a b x) ((fun x => if x =? 0 then la else lb) x).
Proof. intros Ra Rb x. unfold pair_env. destruct (x =? 0); assumption. Qed.

(** De Morgan: ~(a & b) == (~a | ~b) exactly when neither has a bit set at or beyond the size of the shorter one. *)
Theorem C151_de_morgan_and w a b la lb : width w -> repr w a la -> repr w b lb ->
  exists x y r, eval w (pair_env a b) (Not (And (Var 0) (Var 1))) = Done x /\ eval w (pair_env a b) (Or (Not (Var 0)) (Not (Var 1))) = Done y /\ equals x y = Done r /\
    (r = true <-> forall i, Nat.min (length la) (length lb) <= i -> nth i la false = false /\ nth i lb false = false).
Proof.
  intros Hw Ra Rb. destruct (compare w (pair_env a b) _ (Not (And (Var 0) (Var 1))) (Or (Not (Var 0)) (Not (Var 1))) Hw (pair_repr w a b la lb Ra Rb)) as (x & y & r & E & E' & EQ & HQ). exists x, y, r. split; [exact E|]. split; [exact E'|]. split; [exact EQ|]. rewrite HQ. cbn [elist Nat.eqb].
  assert (B : forall i, sbit (s_flip (s_zip andb la lb)) i = sbit (s_zip orb (s_flip la) (s_flip lb)) i <-> (Nat.min (length la) (length lb) <= i -> nth i la false = false /\ nth i lb false = false)).
  { intros i. rewrite sbit_flip_full, s_zip_length, !sbit_zip, !sbit_flip_full by reflexivity. pose proof (sbit_high la i) as Ha. pose proof (sbit_high lb i) as Hb. unfold sbit in *.
    destruct (Nat.ltb_spec i (length la)) as [A|A]; destruct (Nat.ltb_spec i (length lb)) as [B|B]; destruct (Nat.ltb_spec i (Nat.max (length la) (length lb))) as [C|C]; try (exfalso; lia).
    - split; [lia|]. intros _. destruct (nth i la false), (nth i lb false); reflexivity.
    - rewrite (Hb B). destruct (nth i la false); cbn; split; intros H; auto; try discriminate; destruct (H ltac:(lia)); discriminate.
    - rewrite (Ha A). destruct (nth i lb false); cbn; split; intros H; auto; try discriminate; destruct (H ltac:(lia)); discriminate.
    - rewrite (Ha A), (Hb B). cbn. split; auto. }
  split; intros H i; [apply B, H | apply B; exact (H i)].
Qed.
(** ~(a | b) == (~a & ~b) exactly when the longer one has all its bits set from there on. *)
Theorem C151_de_morgan_or w a b la lb : width w -> repr w a la -> repr w b lb ->
  exists x y r, eval w (pair_env a b) (Not (Or (Var 0) (Var 1))) = Done x /\ eval w (pair_env a b) (And (Not (Var 0)) (Not (Var 1))) = Done y /\ equals x y = Done r /\
    (r = true <-> forall i, Nat.min (length la) (length lb) <= i < Nat.max (length la) (length lb) -> nth i la false = true \/ nth i lb false = true).
Proof.
  intros Hw Ra Rb. destruct (compare w (pair_env a b) _ (Not (Or (Var 0) (Var 1))) (And (Not (Var 0)) (Not (Var 1))) Hw (pair_repr w a b la lb Ra Rb)) as (x & y & r & E & E' & EQ & HQ). exists x, y, r. split; [exact E|]. split; [exact E'|]. split; [exact EQ|]. rewrite HQ. cbn [elist Nat.eqb].
  assert (B : forall i, sbit (s_flip (s_zip orb la lb)) i = sbit (s_zip andb (s_flip la) (s_flip lb)) i <-> (Nat.min (length la) (length lb) <= i < Nat.max (length la) (length lb) -> nth i la false = true \/ nth i lb false = true)).
  { intros i. rewrite sbit_flip_full, s_zip_length, !sbit_zip, !sbit_flip_full by reflexivity. pose proof (sbit_high la i) as Ha. pose proof (sbit_high lb i) as Hb. unfold sbit in *.
    destruct (Nat.ltb_spec i (length la)) as [A|A]; destruct (Nat.ltb_spec i (length lb)) as [B|B]; destruct (Nat.ltb_spec i (Nat.max (length la) (length lb))) as [C|C]; try (exfalso; lia).
    - split; [lia|]. intros _. destruct (nth i la false), (nth i lb false); reflexivity.
    - rewrite (Hb B). destruct (nth i la false); cbn; split; intros H; auto; try discriminate; destruct (H ltac:(lia)); discriminate.
    - rewrite (Ha A). destruct (nth i lb false); cbn; split; intros H; auto; try discriminate; destruct (H ltac:(lia)); discriminate.
    - split; [lia | reflexivity]. }
  split; intros H i; [apply B, H | apply B; exact (H i)].
Qed.
(** Bitsets that compare equal have complements that compare equal exactly when they have the same size. *)
Theorem C151_not_congruence w a b la lb : width w -> repr w a la -> repr w b lb -> equals a b = Done true ->
  exists x y r, op_not w a = Done x /\ op_not w b = Done y /\ equals x y = Done r /\ (r = true <-> GetSize a = GetSize b).
Proof.
  intros Hw Ra Rb EQ. destruct (op_not_repr w a la Hw Ra) as (x & E & Rx). destruct (op_not_repr w b lb Hw Rb) as (y & E' & Ry). destruct (equals_repr w x y _ _ Rx Ry) as (r & ER & HR). exists x, y, r. split; [exact E|]. split; [exact E'|]. split; [exact ER|]. rewrite HR.
  destruct (equals_repr w a b _ _ Ra Rb) as (q & E2 & HQ). rewrite EQ in E2. injection E2 as <-. pose proof (proj1 HQ eq_refl) as B. unfold GetSize. rewrite (proj1 Ra), (proj1 Rb). split.
  - intros H. destruct (Nat.lt_trichotomy (length la) (length lb)) as [L|[L|L]]; [exfalso | exact L | exfalso].
    + specialize (H (length la)). rewrite !sbit_flip_full in H. replace (length la <? length la) with false in H by lia. replace (length la <? length lb) with true in H by lia. rewrite <- B, sbit_high in H by lia. discriminate.
    + specialize (H (length lb)). rewrite !sbit_flip_full in H. replace (length lb <? length lb) with false in H by lia. replace (length lb <? length la) with true in H by lia. rewrite B, sbit_high in H by lia. discriminate.
  - intros L i. rewrite !sbit_flip_full, L. now rewrite B.
Qed.
(** Two laws that fail for operands of different sizes. *)
Theorem C151_laws_refuted : exists e f e' f', law e f /\ law e' f' /\ forall w, width w -> exists a b la lb x y x' y', repr w a la /\ repr w b lb /\
  eval w (pair_env a b) e = Done x /\ eval w (pair_env a b) f = Done y /\ equals x y = Done false /\ eval w (pair_env a b) e' = Done x' /\ eval w (pair_env a b) f' = Done y' /\ equals x' y' = Done false.
Proof.
  exists (Not (And (Var 0) (Var 1))), (Or (Not (Var 0)) (Not (Var 1))), (Not (Or (Var 0) (Var 1))), (And (Not (Var 0)) (Not (Var 1))).
  split; [intros v; cbn; destruct (v 0), (v 1); reflexivity|]. split; [intros v; cbn; destruct (v 0), (v 1); reflexivity|]. intros w Hw.
  assert (R2 : exists b, repr w b [true; false]). { destruct (make_repr w 2 true) as (b & _ & R). destruct (ShiftRight_repr w b _ 1 R) as (b' & _ & R'). exists b'. exact R'. }
  destruct R2 as (b & Rb). pose proof (repr_empty w) as Ra. exists empty, b, [], [true; false].
  destruct (C151_de_morgan_and w empty b _ _ Hw Ra Rb) as (x & y & r & E1 & E2 & E3 & H). destruct (C151_de_morgan_or w empty b _ _ Hw Ra Rb) as (x' & y' & r' & E1' & E2' & E3' & H'). exists x, y, x', y'.
  assert (r = false) by (destruct r; [destruct (proj1 H eq_refl 0 ltac:(cbn; lia)) as (_ & K); discriminate | reflexivity]). assert (r' = false) by (destruct r'; [destruct (proj1 H' eq_refl 1 ltac:(cbn; lia)) as [K|K]; discriminate | reflexivity]). subst r r'. auto 12.
Qed.

(** *** Shifts *)
Theorem C151_shifts_add w b l m n : width w -> repr w b l ->
  (b' <- ShiftLeft w b m ;; ShiftLeft w b' n) = ShiftLeft w b (m + n) /\ (b' <- ShiftRight w b m ;; ShiftRight w b' n) = ShiftRight w b (m + n).
Proof.
  intros Hw R. split.
  - destruct (ShiftLeft_repr w b l m R) as (x & -> & Rx). cbn [bind]. destruct (ShiftLeft_repr w x _ n Rx) as (y & -> & Ry). destruct (ShiftLeft_repr w b l (m + n) R) as (z & -> & Rz). f_equal. apply (repr_inj w y z _ Ry). replace (s_shl (s_shl l m) n) with (s_shl l (m + n)); [exact Rz|].
    apply same_bits; [now rewrite !s_shl_length|]. intros i Hi. rewrite s_shl_length in Hi. rewrite !sbit_shl, s_shl_length. replace (i <? length l) with true by lia. destruct (Nat.ltb_spec i n) as [A|A]; [now replace (i <? m + n) with true by lia|]. replace (i - n <? length l) with true by lia. destruct (Nat.ltb_spec (i - n) m) as [B|B]; [now replace (i <? m + n) with true by lia|]. replace (i <? m + n) with false by lia. f_equal. lia.
  - destruct (ShiftRight_repr w b l m R) as (x & -> & Rx). cbn [bind]. destruct (ShiftRight_repr w x _ n Rx) as (y & -> & Ry). destruct (ShiftRight_repr w b l (m + n) R) as (z & -> & Rz). f_equal. apply (repr_inj w y z _ Ry). replace (s_shr (s_shr l m) n) with (s_shr l (m + n)); [exact Rz|].
    apply same_bits; [now rewrite !s_shr_length|]. intros i Hi. rewrite !sbit_shr. f_equal. lia.
Qed.
(** Shifting by the same amount there and back clears the bits that were shifted out. *)
Theorem C151_shift_back w b l n : width w -> repr w b l ->
  (exists r, (b' <- ShiftLeft w b n ;; ShiftRight w b' n) = Done r /\ forall i, i < length l -> Test w r i = Done (if i + n <? length l then nth i l false else false)) /\
  (exists r, (b' <- ShiftRight w b n ;; ShiftLeft w b' n) = Done r /\ forall i, i < length l -> Test w r i = Done (if i <? n then false else nth i l false)).
Proof.
  intros Hw R. split.
  - destruct (ShiftLeft_repr w b l n R) as (x & -> & Rx). cbn [bind]. destruct (ShiftRight_repr w x _ n Rx) as (y & -> & Ry). exists y. split; [reflexivity|]. intros i Hi. rewrite (Test_repr w y _ i Ry), s_shr_length, s_shl_length. replace (i <? length l) with true by lia. f_equal. rewrite sbit_shr, sbit_shl. destruct (i + n <? length l); [|reflexivity]. replace (i + n <? n) with false by lia. unfold sbit. f_equal. lia.
  - destruct (ShiftRight_repr w b l n R) as (x & -> & Rx). cbn [bind]. destruct (ShiftLeft_repr w x _ n Rx) as (y & -> & Ry). exists y. split; [reflexivity|]. intros i Hi. rewrite (Test_repr w y _ i Ry), s_shl_length, s_shr_length. replace (i <? length l) with true by lia. f_equal. rewrite sbit_shl, s_shr_length, sbit_shr. replace (i <? length l) with true by lia. destruct (Nat.ltb_spec i n); [reflexivity|]. unfold sbit. f_equal. lia.
Qed.

Lemma truth_ext e v v' : (forall x, occurs x e -> v x = v' x) -> truth v e = truth v' e.
Proof. intros H. induction e as [x|a IHa b IHb|a IHa b IHb|a IHa b IHb|a IHa]; cbn [truth occurs] in *; [now apply H | rewrite IHa, IHb by (intros x Hx; apply H; auto); reflexivity.. | now rewrite IHa]. Qed.
Lemma truth_none e : no_not e -> truth (fun _ => false) e = false.
Proof. induction e as [x|a IHa b IHb|a IHa b IHb|a IHa b IHb|a IHa]; cbn [truth no_not]; [reflexivity | intros (Ha & Hb); rewrite IHa, ?IHb by assumption; reflexivity.. | contradiction]. Qed.
(** Shifting the operands or the result: the same bitset for << if the operands have one size, equal bitsets for >> whatever the sizes. *)
Theorem C151_shift_left_distributes w env env' ls e n k : width w -> (forall x, occurs x e -> repr w (env x) (ls x) /\ length (ls x) = n /\ ShiftLeft w (env x) k = Done (env' x)) -> no_not e ->
  exists r r', eval w env e = Done r /\ ShiftLeft w r k = Done r' /\ eval w env' e = Done r'.
Proof.
  intros Hw R NN. destruct (eval_repr w env ls e Hw) as (r & E & Re); [intros x Hx; apply (R x Hx)|]. destruct (ShiftLeft_repr w r _ k Re) as (r' & E' & Rr).
  destruct (eval_repr w env' (fun x => s_shl (ls x) k) e Hw) as (q & Eq & Rq). { intros x Hx. destruct (R x Hx) as (R1 & _ & R3). destruct (ShiftLeft_repr w _ _ k R1) as (y & Ey & Ry). rewrite R3 in Ey. injection Ey as ->. exact Ry. }
  exists r, r'. split; [exact E|]. split; [exact E'|]. rewrite Eq. f_equal. apply (repr_inj w q r' _ Rq). replace (elist (fun x => s_shl (ls x) k) e) with (s_shl (elist ls e) k); [exact Rr|].
  destruct (elist_same ls n e) as (L & _); [intros x Hx; apply (R x Hx)|]. destruct (elist_same (fun x => s_shl (ls x) k) n e) as (L' & _); [intros x Hx; rewrite s_shl_length; apply (R x Hx)|].
  apply same_bits; [now rewrite s_shl_length, L, L'|]. intros i Hi. rewrite s_shl_length, L in Hi. rewrite sbit_shl, L, !elist_no_not by exact NN. replace (i <? n) with true by lia. destruct (Nat.ltb_spec i k) as [A|A].
  - rewrite <- (truth_none e NN). apply truth_ext. intros x Hx. rewrite sbit_shl. replace (i <? k) with true by lia. now destruct (i <? length (ls x)).
  - apply truth_ext. intros x Hx. destruct (R x Hx) as (_ & LX & _). rewrite sbit_shl, LX. replace (i <? n) with true by lia. now replace (i <? k) with false by lia.
Qed.
Theorem C151_shift_right_distributes w env env' ls e k : width w -> (forall x, occurs x e -> repr w (env x) (ls x) /\ ShiftRight w (env x) k = Done (env' x)) -> no_not e ->
  exists r r' q, eval w env e = Done r /\ ShiftRight w r k = Done r' /\ eval w env' e = Done q /\ equals r' q = Done true.
Proof.
  intros Hw R NN. destruct (eval_repr w env ls e Hw) as (r & E & Re); [intros x Hx; apply (R x Hx)|]. destruct (ShiftRight_repr w r _ k Re) as (r' & E' & Rr).
  destruct (eval_repr w env' (fun x => s_shr (ls x) k) e Hw) as (q & Eq & Rq). { intros x Hx. destruct (R x Hx) as (R1 & R3). destruct (ShiftRight_repr w _ _ k R1) as (y & Ey & Ry). rewrite R3 in Ey. injection Ey as ->. exact Ry. }
  exists r, r', q. split; [exact E|]. split; [exact E'|]. split; [exact Eq|]. destruct (equals_repr w r' q _ _ Rr Rq) as (z & -> & HZ). f_equal. apply HZ. intros i. rewrite sbit_shr, !elist_no_not by exact NN. apply truth_ext. intros x Hx. now rewrite sbit_shr.
Qed.

(** *** Examples *)
Definition b5 := mkB [21]%N 5.
Definition b3 := mkB [5]%N 3.
Definition both (x y : outcome bitset) : outcome bool := a <- x ;; b <- y ;; equals a b.
Example C151_example_equal_sizes : eval 8 (pair_env b5 (mkB [6]%N 5)) (Not (And (Var 0) (Var 1))) = Done (mkB [27]%N 5) /\ eval 8 (pair_env b5 (mkB [6]%N 5)) (Or (Not (Var 0)) (Not (Var 1))) = Done (mkB [27]%N 5).
Proof. vm_compute. auto. Qed.
(** 10101 and 101: De Morgan fails; absorption holds, but the size is another one. *)
Example C151_example_sizes : both (eval 8 (pair_env b5 b3) (Not (And (Var 0) (Var 1)))) (eval 8 (pair_env b5 b3) (Or (Not (Var 0)) (Not (Var 1)))) = Done false /\
  eval 8 (pair_env b3 b5) (And (Var 0) (Or (Var 0) (Var 1))) = Done (mkB [5]%N 5) /\ both (Done b3) (Done (mkB [5]%N 5)) = Done true /\ both (op_not 8 b3) (op_not 8 (mkB [5]%N 5)) = Done false.
Proof. vm_compute. auto. Qed.
(** A shift to the left does not distribute over | when the sizes differ. *)
Example C151_example_shift : both (x <- op_or 8 b3 (mkB [16]%N 5) ;; ShiftLeft 8 x 2) (x <- ShiftLeft 8 b3 2 ;; y <- ShiftLeft 8 (mkB [16]%N 5) 2 ;; op_or 8 x y) = Done false.
Proof. vm_compute. auto. Qed.
Print Assumptions C151_defined.
Print Assumptions C151_bits.
Print Assumptions C151_laws.
Print Assumptions C151_only_laws.
Print Assumptions C151_laws_without_not.
Print Assumptions C151_congruence_without_not.
Print Assumptions C151_de_morgan_and.
Print Assumptions C151_de_morgan_or.
Print Assumptions C151_not_congruence.
Print Assumptions C151_laws_refuted.
Print Assumptions C151_shifts_add.
Print Assumptions C151_shift_back.
Print Assumptions C151_shift_left_distributes.
Print Assumptions C151_shift_right_distributes.
