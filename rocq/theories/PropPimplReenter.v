(** * C142: objects that use handles while they are constructed and destroyed *)

From Coq Require Import List Arith Bool Lia.
Import ListNotations.
From Verif Require Import Base PimplReenterModel.

(** ** Objects that only use handles declared before their own *)

(** An operation an object of handle [h] may make: anything with an earlier handle, and accesses
    through its own. *)
Definition earlier (h : nat) (o : op) : Prop :=
  match o with
  | Emplace g | Reset g => g < h
  | Use g => g <= h
  | End _ => False
  end.

Definition disciplined (beh : nat -> nat -> list op) : Prop :=
  forall h i, Forall (earlier h) (beh h i).

(** Handles below [k] hold exactly the objects alive that they created. *)
Definition owned (k : nat) (s : state) : Prop :=
  (forall h, h < k -> slots s h <> Gone) /\
  (forall h i, h < k ->
     (slots s h = Holds i <-> i < next s /\ home s i = h /\ status_of s i = Alive)) /\
  (forall i, i < next s -> home s i < k -> status_of s i = Alive \/ status_of s i = Dead).

(** What operations with handles below [k] leave as it is. *)
Definition kept (k : nat) (s s' : state) : Prop :=
  (forall h, k <= h -> slots s' h = slots s h) /\
  next s <= next s' /\
  (forall i, i < next s ->
     home s' i = home s i /\ (k <= home s i -> status_of s' i = status_of s i) /\
     (status_of s i = Dead -> status_of s' i = Dead)) /\
  (forall i, next s <= i < next s' -> home s' i < k).

Lemma put_same {A} (f : nat -> A) k v : put f k v k = v.
Proof. unfold put. now rewrite Nat.eqb_refl. Qed.

Lemma put_other {A} (f : nat -> A) k v x : x <> k -> put f k v x = f x.
Proof. intros H. unfold put. destruct (Nat.eqb_spec x k); congruence. Qed.

Lemma kept_refl k s : kept k s s.
Proof. repeat split; intros; trivial; lia. Qed.

Lemma kept_trans k s1 s2 s3 : kept k s1 s2 -> kept k s2 s3 -> kept k s1 s3.
Proof.
  intros (A1 & A2 & A3 & A4) (B1 & B2 & B3 & B4).
  split; [|split; [|split]].
  - intros h Hh. rewrite B1, A1; trivial.
  - lia.
  - intros i Hi. destruct (A3 i Hi) as (H1 & H2 & H3).
    destruct (B3 i ltac:(lia)) as (G1 & G2 & G3).
    split; [congruence|]. split; [|auto]. intros Hk. rewrite G2, H2; trivial. lia.
  - intros i Hi. destruct (lt_dec i (next s2)) as [L|L].
    + destruct (B3 i L) as (G1 & _). rewrite G1. apply A4. lia.
    + apply B4. lia.
Qed.

(** The handle an object is being put into or removed from: accesses through it are fine. *)
Definition usable (h : nat) (s : state) : Prop :=
  match slots s h with
  | Gone => False
  | Empty => True
  | Holds i => i < next s /\ home s i = h /\ status_of s i <> Dead
  end.

Lemma usable_kept h s s' : usable h s -> kept h s s' -> usable h s'.
Proof.
  intros H (A1 & A2 & A3 & A4). unfold usable in *. rewrite A1 by lia.
  destruct (slots s h); trivial. destruct H as (H1 & H2 & H3).
  destruct (A3 _ H1) as (G1 & G2 & _). rewrite G2 by lia. repeat split; trivial; [lia|congruence].
Qed.

Section Discipline.
  Variables ctor dtor : nat -> nat -> list op.
  Hypothesis ctor_ok : disciplined ctor.
  Hypothesis dtor_ok : disciplined dtor.

  Definition good (k : nat) (s : state) (r : outcome state) : Prop :=
    match r with
    | Done s' => owned k s' /\ kept k s s'
    | Fault f => f = FAssert
    end.

  Definition enough (fuel : nat) (o : op) : Prop :=
    match o with
    | Use _ => 1 <= fuel
    | Emplace h | Reset h | End h => h + 2 <= fuel
    end.

  Lemma restrict h k s : h <= k -> owned k s -> owned h s.
  Proof.
    intros L (A & B & C). split; [|split].
    - intros g Hg. apply A. lia.
    - intros g i Hg. apply B. lia.
    - intros i Hi Hh. apply C; lia.
  Qed.

  (** The body of a constructor or destructor of an object of handle [h]. *)
  Lemma run_good fuel h :
    (forall o s k, (forall g, o <> End g) ->
       (forall g, o = Emplace g \/ o = Reset g \/ o = Use g -> g < k) ->
       enough fuel o -> owned k s -> good k s (exec ctor dtor fuel o s)) ->
    h + 1 <= fuel ->
    forall l s, Forall (earlier h) l -> owned h s -> usable h s ->
    good h s (run (exec ctor dtor fuel) l s).
  Proof.
    intros IH Hf l. induction l as [|o l IHl]; intros s Hl Ho Hu.
    - cbn. split; [trivial|apply kept_refl].
    - inversion Hl as [|? ? Ho1 Hl']; subst. cbn [run].
      assert (G : good h s (exec ctor dtor fuel o s)).
      { destruct (match o with Use g => g =? h | _ => false end) eqn:E.
        - destruct o as [g|g|g|g]; try discriminate. apply Nat.eqb_eq in E. subst g.
          destruct fuel as [|fuel]; [lia|]. cbn [exec]. unfold usable in Hu.
          destruct (slots s h) as [|i|]; [split; [trivial|apply kept_refl]| |destruct Hu].
          destruct Hu as (_ & _ & Hd).
          destruct (status_of s i); try (split; [trivial|apply kept_refl]). congruence.
        - apply IH; trivial.
          + intros g ->. exact Ho1.
          + intros g [->|[-> | ->]]; cbn in Ho1; trivial. apply Nat.eqb_neq in E. lia.
          + destruct o; cbn in Ho1 |- *; try lia. }
      destruct (exec ctor dtor fuel o s) as [s1|f]; cbn [bind good] in *; [|exact G].
      destruct G as [G1 G2].
      specialize (IHl s1 Hl' G1 (usable_kept _ _ _ Hu G2)).
      destruct (run _ l s1) as [s2|f]; cbn [good] in *; [|exact IHl].
      destruct IHl as [H1 H2]. split; [exact H1|exact (kept_trans _ _ _ _ G2 H2)].
  Qed.

  Lemma delete_good fuel h k s :
    (forall l s, Forall (earlier h) l -> owned h s -> usable h s ->
       good h s (run (exec ctor dtor fuel) l s)) ->
    h < k -> owned k s ->
    match delete dtor (exec ctor dtor fuel) h s with
    | Done s' => kept k s s' /\ owned h s' /\
        (forall g, g <> h -> h < g -> slots s' g = slots s g) /\ slots s' h = slots s h /\
        (forall i, i < next s' -> home s' i = h -> status_of s' i = Dead) /\
        (forall i, i < next s -> home s i <> h -> h < home s i -> status_of s' i = status_of s i) /\
        (forall i, i < next s' -> h < home s' i -> i < next s) /\
        (forall i, i < next s -> home s' i = home s i)
    | Fault f => f = FAssert
    end.
  Proof.
    intros RG Hk Ho. pose proof Ho as (A & B & C).
    unfold delete. destruct (slots s h) as [|i|] eqn:E.
    - split; [apply kept_refl|]. split; [apply (restrict h k); trivial; lia|].
      split; [trivial|]. split; [trivial|]. split.
      + intros i Hi Hh. destruct (C i Hi ltac:(lia)) as [D|D]; [|exact D].
        assert (X : slots s h = Holds i) by (apply B; auto). congruence.
      + repeat split; trivial.
    - destruct (proj1 (B h i Hk) E) as (Hi & Hh & HA). rewrite HA, Hh.
      set (s0 := set_status s i Destroying).
      assert (O0 : owned h s0).
      { destruct (restrict h k s ltac:(lia) Ho) as (A' & B' & C'). split; [|split].
        - exact A'.
        - intros g j Hg. cbn. unfold put. destruct (Nat.eqb_spec j i) as [->|N]; [|apply B'; trivial].
          split; [|intros (_ & X & _); lia]. intros X. apply B' in X; [|trivial]. lia.
        - intros j Hj Hg. cbn in *. rewrite put_other; [apply C'; trivial|]. intros ->. lia. }
      assert (U0 : usable h s0).
      { unfold usable. cbn. rewrite E. repeat split; trivial. rewrite put_same. discriminate. }
      specialize (RG (dtor h i) s0 (dtor_ok h i) O0 U0).
      destruct (run _ (dtor h i) s0) as [s1|f]; cbn [bind good] in *; [|exact RG].
      destruct RG as [O1 (K1 & K2 & K3 & K4)]. cbn [s0 set_status slots next home status_of] in *.
      assert (Hi1 : i < next s1) by lia.
      destruct (K3 i Hi) as (Hh1 & _).
      split; [|split; [|split; [|split; [|split; [|split; [|split]]]]]].
      + split; [|split; [|split]]; cbn [set_status set_slot slots next home status_of].
        * intros g Hg. apply K1. lia.
        * lia.
        * intros j Hj. destruct (K3 j Hj) as (G1 & G2 & G3). split; [exact G1|].
          destruct (Nat.eq_dec j i) as [->|N].
          -- rewrite put_same. split; [lia|trivial].
          -- rewrite !put_other in * by trivial. split; [intros; apply G2; lia|exact G3].
        * intros j Hj. specialize (K4 j Hj). lia.
      + destruct O1 as (A1 & B1 & C1). split; [|split]; cbn [set_status set_slot slots next home status_of].
        * exact A1.
        * intros g j Hg. destruct (Nat.eq_dec j i) as [->|N].
          -- split; [intros X; apply B1 in X; [|trivial]; lia|intros (_ & X & _); lia].
          -- rewrite put_other by trivial. apply B1. trivial.
        * intros j Hj Hg. destruct (Nat.eq_dec j i) as [->|N]; [lia|].
          rewrite put_other by trivial. apply C1; trivial.
      + intros g _ Hg. cbn. apply K1. lia.
      + cbn. rewrite K1; [exact E|lia].
      + intros j Hj Hg. cbn in *. destruct (Nat.eq_dec j i) as [->|N]; [apply put_same|].
        rewrite put_other by trivial.
        destruct (lt_dec j (next s)) as [L|L].
        * destruct (K3 j L) as (G1 & G2 & _). rewrite put_other in G2 by trivial.
          rewrite G2 by lia. destruct (C j L ltac:(lia)) as [D|D]; [|exact D].
          assert (X : slots s h = Holds j) by (apply B; [trivial|]; repeat split; trivial; lia).
          congruence.
        * specialize (K4 j ltac:(lia)). lia.
      + intros j Hj N Hg. cbn. destruct (K3 j Hj) as (_ & G2 & _).
        rewrite !put_other in * by (intros ->; lia). apply G2. lia.
      + intros j Hj Hg. cbn in *. destruct (lt_dec j (next s)) as [L|L]; [exact L|].
        specialize (K4 j ltac:(lia)). lia.
      + intros j Hj. cbn. apply (K3 j Hj).
    - exfalso. now apply (A h Hk).
  Qed.

  Lemma exec_good : forall fuel o s k, (forall g, o <> End g) ->
    (forall g, o = Emplace g \/ o = Reset g \/ o = Use g -> g < k) ->
    enough fuel o -> owned k s -> good k s (exec ctor dtor fuel o s).
  Proof.
    induction fuel as [|fuel IH]; intros o s k NE Hk Hf Ho.
    { destruct o; cbn in Hf; lia. }
    pose proof Ho as (A & B & C).
    destruct o as [h|h|h|h]; [| | |destruct (NE h eq_refl)].
    - specialize (Hk h (or_introl eq_refl)). cbn [enough] in Hf. cbn [exec].
      destruct (slots s h) as [|j|] eqn:E; [|reflexivity|now destruct (A h Hk)].
      set (i := next s). set (s0 := allocate s h).
      assert (O0 : owned h s0).
      { destruct (restrict h k s ltac:(lia) Ho) as (A' & B' & C').
        split; [exact A'|]. split; cbn.
        - intros g j Hg. rewrite (B' g j Hg). destruct (Nat.eq_dec j i) as [->|N].
          + unfold i. rewrite !put_same. lia.
          + fold i. rewrite !put_other by trivial. unfold i in *. intuition lia.
        - intros j Hj. unfold put. destruct (Nat.eqb_spec j (next s)) as [->|N]; [lia|].
          intros Hg. apply C'; trivial. lia. }
      assert (U0 : usable h s0) by (unfold usable; cbn; now rewrite E).
      pose proof (run_good fuel h IH ltac:(lia) (ctor h i) s0 (ctor_ok h i) O0 U0) as G.
      destruct (run _ (ctor h i) s0) as [s1|f]; cbn [bind good] in *; [|exact G].
      destruct G as [(A1 & B1 & C1) (K1 & K2 & K3 & K4)].
      cbn [s0 allocate slots next home status_of] in *.
      assert (Hi1 : i < next s1) by (unfold i; lia).
      destruct (K3 i ltac:(unfold i; lia)) as (Hh1 & _). unfold i in Hh1. rewrite put_same in Hh1.
      fold i in Hh1.
      assert (Old : forall j, j < next s -> home s1 j = home s j /\
                (h <= home s j -> status_of s1 j = status_of s j) /\
                (status_of s j = Dead -> status_of s1 j = Dead)).
      { intros j Hj. destruct (K3 j ltac:(lia)) as (G1 & G2 & G3).
        rewrite put_other in G1 by lia. rewrite !put_other in G2 by lia.
        rewrite put_other in G3 by lia. auto. }
      assert (New : forall j, next s < j < next s1 -> home s1 j < h) by (intros j Hj; apply K4; lia).
      split.
      + split; [|split]; cbn.
        * intros g Hg. unfold put. destruct (Nat.eqb_spec g h); [discriminate|].
          destruct (lt_dec g h); [now apply A1|]. rewrite K1 by lia. now apply A.
        * intros g j Hg. unfold put at 1 2. destruct (Nat.eqb_spec g h) as [->|N].
          -- destruct (Nat.eqb_spec j i) as [->|N]; [split; auto|].
             split; [congruence|]. intros (Hj & Hh & HA). exfalso.
             destruct (lt_eq_lt_dec j (next s)) as [[L|L]|L]; [|now apply N|].
             ++ destruct (Old j L) as (G1 & G2 & _). rewrite G2 in HA by lia.
                assert (X : slots s h = Holds j) by (apply B; [trivial|]; repeat split; trivial; lia).
                congruence.
             ++ specialize (New j ltac:(lia)). lia.
          -- destruct (Nat.eqb_spec j i) as [->|Nj].
             ++ split; [|intros (_ & X & _); congruence].
                destruct (lt_dec g h); [intros X; apply B1 in X; [|trivial]; lia|].
                rewrite K1 by lia. intros X. apply B in X; [|trivial]. unfold i in X. lia.
             ++ destruct (lt_dec g h); [now apply B1|]. rewrite K1 by lia. rewrite B by trivial.
                destruct (lt_dec j (next s)) as [L|L].
                ** destruct (Old j L) as (G1 & G2 & _). rewrite G1. split.
                   --- intros (X1 & X2 & X3). rewrite G2 by lia. repeat split; trivial; lia.
                   --- intros (X1 & X2 & X3). rewrite G2 in X3 by lia. auto.
                ** split; [lia|]. intros (X1 & X2 & X3).
                   specialize (New j ltac:(unfold i in Nj; lia)). lia.
        * intros j Hj Hg. unfold put. destruct (Nat.eqb_spec j i) as [->|Nj]; [auto|].
          destruct (lt_dec (home s1 j) h) as [L|L]; [apply C1; trivial|].
          destruct (lt_dec j (next s)) as [Lj|Lj].
          -- destruct (Old j Lj) as (G1 & G2 & _). rewrite G2 by lia. apply C; trivial. lia.
          -- specialize (New j ltac:(unfold i in Nj; lia)). lia.
      + split; [|split; [|split]]; cbn.
        * intros g Hg. rewrite put_other by lia. apply K1. lia.
        * lia.
        * intros j Hj. destruct (Old j Hj) as (G1 & G2 & G3). rewrite put_other by (unfold i; lia).
          split; [exact G1|]. split; [intros; apply G2; lia|exact G3].
        * intros j Hj. destruct (Nat.eq_dec j i) as [->|Nj]; [lia|].
          specialize (New j ltac:(unfold i in Nj; lia)). lia.
    - specialize (Hk h (or_intror (or_introl eq_refl))). cbn [enough] in Hf. cbn [exec].
      pose proof (delete_good fuel h k s (run_good fuel h IH ltac:(lia)) Hk Ho) as D.
      destruct (delete _ _ h s) as [s1|f]; cbn [bind good]; [|exact D].
      destruct D as ((K1 & K2 & K3 & K4) & (A1 & B1 & C1) & S1 & S2 & D1 & D2 & D3 & D4).
      split.
      + split; [|split]; cbn.
        * intros g Hg. unfold put. destruct (Nat.eqb_spec g h); [discriminate|].
          destruct (lt_dec g h); [now apply A1|]. rewrite S1 by lia. now apply A.
        * intros g j Hg. unfold put. destruct (Nat.eqb_spec g h) as [->|N].
          -- split; [discriminate|]. intros (X1 & X2 & X3). rewrite D1 in X3 by trivial. discriminate.
          -- destruct (lt_dec g h); [now apply B1|]. rewrite S1, B by lia. split.
             ++ intros (X1 & X2 & X3). rewrite D4 by trivial. rewrite D2 by lia.
                repeat split; trivial. lia.
             ++ intros (X1 & X2 & X3). assert (X : j < next s) by (apply D3; lia).
                rewrite D4 in X2 by trivial. rewrite D2 in X3 by lia. auto.
        * intros j Hj Hg. destruct (lt_eq_lt_dec (home s1 j) h) as [[L|L]|L].
          -- apply C1; trivial.
          -- right. now apply D1.
          -- assert (X : j < next s) by (apply D3; lia). rewrite D4 in * by trivial.
             rewrite D2 by lia. apply C; trivial.
      + split; [|split; [|split]]; cbn; trivial.
        intros g Hg. rewrite put_other by lia. now apply K1.
    - specialize (Hk h (or_intror (or_intror eq_refl))). cbn [exec].
      destruct (slots s h) as [|i|] eqn:E; [split; [trivial|apply kept_refl]| |now destruct (A h Hk)].
      apply B in E; [|trivial]. destruct E as (_ & _ & ->). split; [trivial|apply kept_refl].
  Qed.

  Lemma end_good : forall fuel h s, h + 2 <= fuel -> owned (S h) s ->
    match exec ctor dtor fuel (End h) s with
    | Done s' => owned h s' /\ kept (S h) (set_slot s h Gone) s' /\
                 (forall i, i < next s' -> home s' i = h -> status_of s' i = Dead)
    | Fault f => f = FAssert
    end.
  Proof.
    intros [|fuel] h s Hf Ho; [lia|]. cbn [exec].
    pose proof (delete_good fuel h (S h) s (run_good fuel h (exec_good fuel) ltac:(lia)) ltac:(lia) Ho) as D.
    destruct (delete _ _ h s) as [s1|f]; cbn [bind]; [|exact D].
    destruct D as ((K1 & K2 & K3 & K4) & (A1 & B1 & C1) & S1 & S2 & D1 & D2 & D3 & D4).
    split; [|split].
    - split; [|split]; cbn.
      + intros g Hg. rewrite put_other by lia. now apply A1.
      + intros g j Hg. rewrite put_other by lia. now apply B1.
      + exact C1.
    - split; [|split; [|split]]; cbn; trivial.
      intros g Hg. rewrite !put_other by lia. now apply K1.
    - exact D1.
  Qed.
End Discipline.

(** Operations of a program on [n] handles in scope. *)
Definition in_scope (n : nat) (o : op) : Prop :=
  match o with Emplace h | Reset h | Use h => h < n | End _ => False end.

Lemma run_app one l1 l2 s : run one (l1 ++ l2) s = (s1 <- run one l1 s ;; run one l2 s1).
Proof.
  revert s; induction l1 as [|o l IH]; intros s; cbn; [reflexivity|].
  destruct (one o s); cbn; [apply IH|reflexivity].
Qed.

Lemma program_good ctor dtor n : disciplined ctor -> disciplined dtor ->
  forall l s, Forall (in_scope n) l -> owned n s ->
  match exec_all ctor dtor (n + 1) l s with
  | Done s' => owned n s' /\ kept n s s'
  | Fault f => f = FAssert
  end.
Proof.
  intros Hc Hd. induction l as [|o l IH]; intros s Hl Ho; [split; [trivial|apply kept_refl]|].
  inversion Hl as [|? ? H1 H2]; subst. unfold exec_all in *. cbn [run].
  assert (G : good n s (exec ctor dtor (n + 1) o s)).
  { apply exec_good; trivial.
    - intros g ->. exact H1.
    - intros g [->|[-> | ->]]; exact H1.
    - destruct o; cbn in *; try lia. }
  destruct (exec ctor dtor (n + 1) o s) as [s1|f]; cbn [bind good] in *; [|exact G].
  destruct G as [G1 G2]. specialize (IH s1 H2 G1).
  destruct (run _ l s1); [|exact IH]. destruct IH. split; [trivial|eapply kept_trans; eauto].
Qed.

Lemma scope_end_good ctor dtor n : disciplined ctor -> disciplined dtor ->
  forall fuel s, n + 1 <= fuel -> owned n s ->
  match exec_all ctor dtor fuel (scope_end n) s with
  | Done s' => (forall i, i < next s' -> home s' i < n -> status_of s' i = Dead) /\
               next s <= next s' /\
               (forall i, i < next s -> home s' i = home s i /\
                          (n <= home s i \/ status_of s i = Dead -> status_of s' i = status_of s i)) /\
               (forall i, next s <= i < next s' -> home s' i < n)
  | Fault f => f = FAssert
  end.
Proof.
  intros Hc Hd. induction n as [|n IH]; intros fuel s Hf Ho.
  { cbn. split; [intros; lia|]. split; [lia|]. split; [auto|intros; lia]. }
  unfold exec_all in *. cbn [scope_end run].
  pose proof (end_good ctor dtor Hc Hd fuel n s ltac:(lia) Ho) as E.
  destruct (exec ctor dtor fuel (End n) s) as [s1|f]; cbn [bind]; [|exact E].
  destruct E as (O1 & (K1 & K2 & K3 & K4) & D). specialize (IH fuel s1 ltac:(lia) O1).
  destruct (run _ (scope_end n) s1) as [s2|f]; [|exact IH].
  destruct IH as (I1 & I2 & I3 & I4). cbn in *.
  split; [|split; [|split]].
  - intros i Hi Hh. destruct (lt_dec (home s2 i) n) as [L|L]; [now apply I1|].
    destruct (lt_dec i (next s1)) as [Li|Li].
    + destruct (I3 i Li) as (G1 & G2). assert (X : status_of s1 i = Dead) by (apply D; trivial; lia).
      rewrite G2; auto.
    + specialize (I4 i ltac:(lia)). lia.
  - lia.
  - intros i Hi. destruct (K3 i Hi) as (G1 & G2 & G3). destruct (I3 i ltac:(lia)) as (J1 & J2).
    split; [congruence|]. intros [H|H].
    + rewrite J2 by (left; lia). apply G2. exact H.
    + rewrite J2 by (right; auto). rewrite G3 by trivial. congruence.
  - intros i Hi. destruct (lt_dec i (next s1)) as [L|L].
    + destruct (I3 i L) as (J1 & _). rewrite J1. apply K4. lia.
    + specialize (I4 i ltac:(lia)). lia.
Qed.

(** Objects that only use handles declared before their own, and access (not replace) their own:
    whatever the program does, nothing undefined happens and nothing recurses without end; a handle
    holds exactly the object it created that is alive; once the handles have ended every object
    created has been destroyed.  Only the assertion of Emplace on a handle in use can fail. *)
Theorem C142_earlier_partial : forall ctor dtor n l,
  disciplined ctor -> disciplined dtor -> Forall (in_scope n) l ->
  match exec_all ctor dtor (n + 1) l fresh with
  | Done s =>
      (forall h i, h < n ->
         (slots s h = Holds i <-> i < next s /\ home s i = h /\ status_of s i = Alive)) /\
      (forall i, i < next s -> status_of s i = Alive \/ status_of s i = Dead) /\
      match exec_all ctor dtor (n + 1) (scope_end n) s with
      | Done s' => next s <= next s' /\ forall i, i < next s' -> status_of s' i = Dead
      | Fault f => f = FAssert
      end
  | Fault f => f = FAssert
  end.
Proof.
  intros ctor dtor n l Hc Hd Hl.
  assert (O : owned n fresh).
  { split; [|split]; cbn; [discriminate| |intros; lia]. intros; split; [discriminate|lia]. }
  pose proof (program_good ctor dtor n Hc Hd l fresh Hl O) as P.
  destruct (exec_all ctor dtor (n + 1) l fresh) as [s|f]; [|exact P].
  destruct P as [(A & B & C) (K1 & K2 & K3 & K4)]. cbn in *.
  assert (H : forall i, i < next s -> home s i < n) by (intros; apply K4; lia).
  split; [exact B|]. split; [intros; apply C; auto|].
  pose proof (scope_end_good ctor dtor n Hc Hd (n + 1) s ltac:(lia) (conj A (conj B C))) as E.
  destruct (exec_all ctor dtor (n + 1) (scope_end n) s) as [s'|f]; [|exact E].
  destruct E as (E1 & E2 & E3 & E4). split; [exact E2|].
  intros i Hi. apply E1; trivial. destruct (lt_dec i (next s)) as [L|L].
  - destruct (E3 i L) as (-> & _). auto.
  - apply E4. lia.
Qed.

(** ** Objects that replace themselves *)

(** A destructor that resets its own handle deletes the object twice, in any state and whatever
    else it does afterwards ([std::unique_ptr] clears the pointer first). *)
Theorem C142_reset_own_refuted : forall ctor dtor fuel h i s rest,
  slots s h = Holds i -> status_of s i = Alive -> dtor (home s i) i = Reset h :: rest ->
  exec ctor dtor (S (S fuel)) (Reset h) s = Fault FUB /\
  exec ctor dtor (S (S fuel)) (End h) s = Fault FUB.
Proof.
  intros ctor dtor fuel h i s rest E A D.
  split; cbn [exec]; unfold delete at 1; rewrite E, A, D; cbn [run exec]; unfold delete; cbn;
    rewrite E, put_same; reflexivity.
Qed.

(** A destructor that emplaces a successor in its own handle fails the assertion. *)
Theorem C142_emplace_own_in_destructor_refuted : forall ctor dtor fuel h i s rest,
  slots s h = Holds i -> status_of s i = Alive -> dtor (home s i) i = Emplace h :: rest ->
  exec ctor dtor (S (S fuel)) (Reset h) s = Fault FAssert.
Proof.
  intros ctor dtor fuel h i s rest E A D.
  cbn [exec]; unfold delete; rewrite E, A, D; cbn; rewrite E; reflexivity.
Qed.

(** A constructor that emplaces in the handle it is being emplaced in: the inner object is put into
    the handle, then overwritten by the outer one, and stays alive without any handle. *)
Theorem C142_emplace_own_refuted : forall ctor dtor fuel h s,
  slots s h = Empty -> ctor h (next s) = [Emplace h] -> ctor h (S (next s)) = [] ->
  exists s', exec ctor dtor (S (S fuel)) (Emplace h) s = Done s' /\
  slots s' h = Holds (next s) /\ next s' = S (S (next s)) /\
  status_of s' (S (next s)) = Alive /\
  forall g, slots s' g = Holds (S (next s)) -> slots s g = Holds (S (next s)).
Proof.
  intros ctor dtor fuel h s E C1 C2.
  eexists. split; [cbn [exec]; rewrite E, C1; cbn; rewrite E, C2; reflexivity|].
  cbn. rewrite put_same. split; [reflexivity|]. split; [reflexivity|]. split.
  - rewrite put_other by lia. apply put_same.
  - intros g. unfold put. destruct (Nat.eqb_spec g h) as [->|N]; [|trivial].
    intros H. injection H. lia.
Qed.

(** Using a handle declared later is undefined when the scope ends, since that handle has ended. *)
Theorem C142_later_refuted : forall ctor dtor fuel h g i s rest,
  slots s h = Holds i -> status_of s i = Alive ->
  (dtor (home s i) i = Use g :: rest \/ dtor (home s i) i = Reset g :: rest \/
   dtor (home s i) i = Emplace g :: rest) ->
  slots s g = Gone ->
  exec ctor dtor (S (S fuel)) (End h) s = Fault FUB.
Proof.
  intros ctor dtor fuel h g i s rest E A D G.
  cbn [exec]; unfold delete at 1; rewrite E, A.
  destruct D as [-> | [-> | ->]]; cbn; unfold delete; cbn; rewrite G; reflexivity.
Qed.

(** What each operation leaves in its handle, whatever the objects do. *)
Theorem C142_afterwards : forall ctor dtor fuel h s s',
  (exec ctor dtor fuel (Emplace h) s = Done s' ->
     slots s h = Empty /\ slots s' h = Holds (next s) /\ status_of s' (next s) = Alive) /\
  (exec ctor dtor fuel (Reset h) s = Done s' -> slots s h <> Gone /\ slots s' h = Empty) /\
  (exec ctor dtor fuel (End h) s = Done s' -> slots s h <> Gone /\ slots s' h = Gone).
Proof.
  intros ctor dtor [|fuel] h s s'; [repeat split; discriminate|]. cbn [exec].
  split; [|split].
  - destruct (slots s h); try discriminate.
    destruct (run _ _ _) as [s1|f]; cbn; [|discriminate]. intros H. injection H as <-. cbn.
    rewrite !put_same. auto.
  - unfold delete. destruct (slots s h) as [|i|]; cbn; [|destruct (status_of s i); try discriminate|discriminate].
    + intros H. injection H as <-. cbn. rewrite put_same. split; [discriminate|trivial].
    + destruct (run _ _ _) as [s1|f]; cbn; [|discriminate]. intros H. injection H as <-. cbn.
      rewrite put_same. split; [discriminate|trivial].
  - unfold delete. destruct (slots s h) as [|i|]; cbn; [|destruct (status_of s i); try discriminate|discriminate].
    + intros H. injection H as <-. cbn. rewrite put_same. split; [discriminate|trivial].
    + destruct (run _ _ _) as [s1|f]; cbn; [|discriminate]. intros H. injection H as <-. cbn.
      rewrite put_same. split; [discriminate|trivial].
Qed.

(** An access is fine exactly when the handle has not ended and its object, if any, has not been
    destroyed; it changes nothing. *)
Theorem C142_access : forall ctor dtor fuel h s,
  exec ctor dtor (S fuel) (Use h) s =
  (if match slots s h with
      | Gone => false
      | Empty => true
      | Holds i => match status_of s i with Dead => false | _ => true end
      end
   then Done s else Fault FUB).
Proof.
  intros ctor dtor fuel h s. cbn. destruct (slots s h) as [|i|]; try reflexivity.
  destruct (status_of s i); reflexivity.
Qed.

(** Handles 0 and 1; objects of handle 1 keep a companion in handle 0, use both in their
    destructor and drop the companion.  Then an object in handle 0 that resets itself. *)
Definition ctor_ex (h i : nat) : list op := if h =? 1 then [Reset 0; Emplace 0; Use 1] else [].
Definition dtor_ex (h i : nat) : list op := if h =? 1 then [Use 1; Use 0; Reset 0] else [].

Example C142_example :
  disciplined ctor_ex /\ disciplined dtor_ex /\
  (exists s, exec_all ctor_ex dtor_ex 3 ([Emplace 1; Reset 1; Emplace 0; Emplace 1] ++ scope_end 2) fresh
             = Done s /\ next s = 5 /\ map (status_of s) (seq 0 5) = repeat Dead 5) /\
  exec_all (fun _ _ => []) (fun _ _ => [Reset 0]) 5 [Emplace 0; Reset 0] fresh = Fault FUB /\
  exec_all (fun _ _ => []) (fun h _ => if h =? 0 then [Use 1] else []) 5
           ([Emplace 0; Emplace 1] ++ scope_end 2) fresh = Fault FUB.
Proof.
  split; [|split; [|split; [|split; reflexivity]]].
  - intros h i. unfold ctor_ex. destruct (Nat.eqb_spec h 1) as [->|]; repeat constructor.
  - intros h i. unfold dtor_ex. destruct (Nat.eqb_spec h 1) as [->|]; repeat constructor.
  - eexists. split; [reflexivity|]. split; reflexivity.
Qed.

Print Assumptions C142_earlier_partial.
Print Assumptions C142_reset_own_refuted.
Print Assumptions C142_emplace_own_in_destructor_refuted.
Print Assumptions C142_emplace_own_refuted.
Print Assumptions C142_later_refuted.
Print Assumptions C142_access.
Print Assumptions C142_afterwards.
