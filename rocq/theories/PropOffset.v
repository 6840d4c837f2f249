(** Property C139: NazaraOffsetOf for every kind of member, declared or inherited, and the types AccessByOffset gives. *)
From Coq Require Import List Bool Arith ZArith Lia String FinFun.
From Verif Require Import OffsetModel.
Import ListNotations.
Open Scope Z_scope.
Local Open Scope string_scope.
Local Open Scope list_scope.

(** ** What is meant *)

(** [place c n path b d e]: the name [n] in an object of class [c] is the entity [e] of class [d], the subobject reached by following the
    bases numbered [path], which is [b] bytes from the start of the object.  A declaration hides those of the bases. *)
Inductive place : cls -> name -> list nat -> Z -> cls -> entity -> Prop :=
| place_here a bs ms n e : In (n, e) ms -> place (Class a bs ms) n [] 0 (Class a bs ms) e
| place_base a bs ms n i o c path b d e : (forall e', ~ In (n, e') ms) -> nth_error bs i = Some (o, c) -> place c n path b d e ->
    place (Class a bs ms) n (i :: path) (o + b) d e.

(** A name is declared once in a class. *)
Inductive wf : cls -> Prop :=
| wf_class a bs ms : NoDup (map fst ms) -> (forall o c, In (o, c) bs -> wf c) -> wf (Class a bs ms).

Definition unambiguous (c : cls) (n : name) : Prop :=
  forall p b d e p' b' d' e', place c n p b d e -> place c n p' b' d' e' -> p = p'.

(** The distance from the start of the object to its member. *)
Definition offset_in (c : cls) (n : name) (z : Z) : Prop := exists p b d t o, place c n p b d (EData t o) /\ z = b + o.

(** ** Lookup *)
Definition entry := (list nat * Z * cls * entity)%type.
Definition under (i : nat) (o : Z) (x : entry) : entry := let '(p, b, d, e) := x in (i :: p, o + b, d, e).
Fixpoint places (c : cls) (n : name) : list entry :=
  let 'Class _ bs ms := c in
  match declared n ms with
  | Some e => [([], 0, c, e)]
  | None => (fix go (i : nat) (l : list (Z * cls)) := match l with [] => [] | (o, b) :: l => map (under i o) (places b n) ++ go (S i) l end) 0%nat bs
  end.
Fixpoint places_go (n : name) (i : nat) (l : list (Z * cls)) : list entry :=
  match l with [] => [] | (o, b) :: l => map (under i o) (places b n) ++ places_go n (S i) l end.
Fixpoint lookup_go (n : name) (l : list (Z * cls)) : list (cls * entity) :=
  match l with [] => [] | (_, b) :: l => lookup b n ++ lookup_go n l end.
Lemma places_eq a bs ms n : places (Class a bs ms) n =
  match declared n ms with Some e => [([], 0, Class a bs ms, e)] | None => places_go n 0 bs end.
Proof.
  cbn [places]. destruct (declared n ms); [reflexivity|]. generalize 0%nat. induction bs as [|[o b] bs IH]; intros i; [reflexivity|].
  cbn [places_go]. now rewrite IH.
Qed.
Lemma lookup_eq a bs ms n : lookup (Class a bs ms) n = match declared n ms with Some e => [(Class a bs ms, e)] | None => lookup_go n bs end.
Proof.
  cbn [lookup]. destruct (declared n ms); [reflexivity|]. induction bs as [|[o b] bs IH]; [reflexivity|]. cbn [lookup_go]. now rewrite IH.
Qed.

(** Induction over a class and its bases. *)
Lemma cls_rect' (P : cls -> Prop) : (forall a bs ms, (forall o c, In (o, c) bs -> P c) -> P (Class a bs ms)) -> forall c, P c.
Proof.
  intros H. fix IH 1. intros [a bs ms]. apply H. induction bs as [|[o' c'] bs IHb]; intros o c I; [destruct I|].
  destruct I as [E|I]; [injection E as <- <-; apply IH|now apply (IHb o)].
Qed.

Lemma declared_spec n ms e : NoDup (map fst ms) -> (declared n ms = Some e <-> In (n, e) ms).
Proof.
  induction ms as [|[n' e'] ms IH]; cbn [declared map fst In]; intros N.
  - split; [discriminate|intros []].
  - apply NoDup_cons_iff in N as (N1 & N2). specialize (IH N2). destruct (String.eqb_spec n n') as [->|D].
    + split; [intros E; injection E as ->; now left|]. intros [E|I]; [now injection E as ->|]. exfalso. apply N1. now apply (in_map fst) in I.
    + rewrite IH. split; [now right|]. intros [E|I]; [injection E; congruence|exact I].
Qed.
Lemma declared_none n ms : declared n ms = None <-> forall e, ~ In (n, e) ms.
Proof.
  induction ms as [|[n' e'] ms IH]; cbn [declared In]; [split; [intros _ e []|reflexivity]|].
  destruct (String.eqb_spec n n') as [->|D].
  - split; [discriminate|]. intros H. exfalso. apply (H e'). now left.
  - rewrite IH. split; intros H e; [intros [E|I]; [injection E; congruence|now apply (H e)]|]. intros I. apply (H e). now right.
Qed.

Lemma lookup_places n : forall c, lookup c n = map (fun x : entry => let '(_, _, d, e) := x in (d, e)) (places c n).
Proof.
  induction c as [a bs ms IH] using cls_rect'. rewrite lookup_eq, places_eq. destruct (declared n ms); [reflexivity|].
  generalize 0%nat. induction bs as [|[o b] bs IHb]; intros i; [reflexivity|]. cbn [lookup_go places_go].
  rewrite map_app, map_map, <- IHb by (intros o' c' I; apply (IH o'); now right). f_equal. rewrite (IH o b) by now left.
  apply map_ext. intros [[[p b'] d] e]. reflexivity.
Qed.

Lemma places_go_in n x : forall l i, In x (places_go n i l) <->
  exists j o b y, nth_error l j = Some (o, b) /\ In y (places b n) /\ x = under (i + j) o y.
Proof.
  induction l as [|[o b] l IH]; intros i; cbn [places_go].
  - split; [intros []|]. intros (j & ? & ? & ? & E & _). now destruct j.
  - rewrite in_app_iff, in_map_iff, IH. split.
    + intros [(y & <- & I)|(j & o' & b' & y & E & I & ->)].
      * exists 0%nat, o, b, y. rewrite Nat.add_0_r. auto.
      * exists (S j), o', b', y. rewrite <- Nat.add_succ_comm. auto.
    + intros ([|j] & o' & b' & y & E & I & ->); cbn [nth_error] in E.
      * injection E as <- <-. left. exists y. rewrite Nat.add_0_r. auto.
      * right. exists j, o', b', y. rewrite Nat.add_succ_comm. auto.
Qed.

Lemma places_spec n : forall c, wf c -> forall p b d e, In (p, b, d, e) (places c n) <-> place c n p b d e.
Proof.
  induction c as [a bs ms IH] using cls_rect'. intros W p b d e. inversion W as [? ? ? N WB]; subst. rewrite places_eq.
  destruct (declared n ms) as [e'|] eqn:D.
  - apply (declared_spec n ms e' N) in D. split.
    + intros [E|[]]. injection E as <- <- <- <-. now constructor.
    + intros H. inversion H as [? ? ? ? ? I|? ? ? ? ? ? ? ? ? ? ? NI]; subst.
      * apply (declared_spec n ms _ N) in I, D. rewrite D in I. injection I as ->. now left.
      * now destruct (NI e').
  - pose proof (proj1 (declared_none n ms) D) as DN. rewrite places_go_in. split.
    + intros (j & o & c & [[[p' b'] d'] e'] & E & I & X). cbn [under Nat.add] in X. injection X as -> -> -> ->.
      pose proof (nth_error_In _ _ E) as IB. apply (IH o c IB (WB o c IB)) in I. now apply place_base with (c := c).
    + intros H. inversion H as [? ? ? ? ? I|? ? ? ? i o c path b' ? ? NI E PL]; subst; [now destruct (DN e)|].
      pose proof (nth_error_In _ _ E) as IB. apply (IH o c IB (WB o c IB)) in PL. exists i, o, c, (path, b', d, e). auto.
Qed.

(** The path tells the places apart. *)
Definition path_of (x : entry) : list nat := let '(p, _, _, _) := x in p.
Lemma places_nodup n : forall c, NoDup (map path_of (places c n)).
Proof.
  induction c as [a bs ms IH] using cls_rect'. rewrite places_eq. destruct (declared n ms); [repeat constructor; intros []|].
  generalize 0%nat. induction bs as [|[o b] bs IHb]; intros i; [constructor|]. cbn [places_go]. rewrite map_app, map_map.
  assert (H0 : NoDup (map (fun x => path_of (under i o x)) (places b n))).
  { rewrite (map_ext _ (fun x => i :: path_of x)) by (intros [[[? ?] ?] ?]; reflexivity).
    rewrite <- (map_map path_of (fun p => i :: p)). apply FinFun.Injective_map_NoDup; [intros x y E; now injection E|].
    apply (IH o). now left. }
  assert (H1 : NoDup (map path_of (places_go n (S i) bs))) by (apply IHb; intros o' c' I; apply (IH o'); now right).
  assert (H2 : forall p, In p (map (fun x => path_of (under i o x)) (places b n)) -> ~ In p (map path_of (places_go n (S i) bs))).
  { intros p I J. apply in_map_iff in I as ([[[? ?] ?] ?] & <- & _). apply in_map_iff in J as (y & E & J).
    apply places_go_in in J as (j & ? & ? & [[[? ?] ?] ?] & _ & _ & ->). cbn in E. injection E as E _. lia. }
  revert H0 H1 H2. clear. generalize (map path_of (places_go n (S i) bs)) as k.
  induction (map (fun x => path_of (under i o x)) (places b n)) as [|x l IHl]; intros k H0 H1 H2; [exact H1|].
  apply NoDup_cons_iff in H0 as (H0 & H0'). cbn [app]. constructor.
  - rewrite in_app_iff. intros [I|I]; [now apply H0|]. apply (H2 x); [now left|exact I].
  - apply IHl; auto. intros p I. apply H2. now right.
Qed.

Lemma lookup_single c n d e : wf c ->
  lookup c n = [(d, e)] <-> (exists p b, place c n p b d e) /\ unambiguous c n.
Proof.
  intros W. rewrite lookup_places. pose proof (places_spec n c W) as S0. pose proof (places_nodup n c) as ND. split.
  - intros E. destruct (places c n) as [|[[[p b] d'] e'] [|y l]] eqn:P; try discriminate. injection E as -> ->.
    split; [exists p, b; apply S0; now left|]. intros q1 b1 d1 e1 q2 b2 d2 e2 I1 I2. apply S0 in I1, I2.
    destruct I1 as [I1|[]], I2 as [I2|[]]. congruence.
  - intros ((p & b & H) & U). pose proof (proj2 (S0 _ _ _ _) H) as I.
    assert (E : places c n = [(p, b, d, e)]); [|now rewrite E].
    assert (A : forall x, In x (places c n) -> path_of x = p).
    { intros [[[q b'] d'] e'] J. apply S0 in J. exact (U _ _ _ _ _ _ _ _ J H). }
    destruct (places c n) as [|x [|y l]]; [destruct I|destruct I as [->|[]]; reflexivity|].
    exfalso. cbn [map] in ND. apply NoDup_cons_iff in ND as (N & _). apply N. rewrite (A x), <- (A y) by (cbn; auto). now left.
Qed.

(** ** NazaraOffsetOf *)

(** The member types it takes: not an array, and no qualifiers unless a class. *)
Definition taken (t : qty) : Prop :=
  match q_ty t with
  | TyScalar _ => q_const t = false /\ q_volatile t = false
  | TyClass _ => True
  | TyArray _ _ | TyFunction _ => False
  end.

(** Exactly when it compiles and what it gives: the offset in the class that declares the member. *)
Theorem C139_declaring_partial : forall cpp20 c n z, wf c ->
  (NazaraOffsetOf cpp20 false c n = Some z <->
   (exists p b d t, place c n p b d (EData t z) /\ taken t /\ (cpp20 = true \/ c_abstract d = false)) /\ unambiguous c n).
Proof.
  intros cpp20 c n z W. unfold NazaraOffsetOf, address_of.
  assert (REF : forall t : ty, ty_eqb t t = true).
  { induction t; cbn; rewrite ?Nat.eqb_refl; auto. now rewrite IHt. }
  assert (CV : forall d t o, match GetClassType cpp20 (PData d t o), GetMemberType cpp20 (PData d t o) with
      | Some T, Some R => if converts t R then Some (run (body o)) else None | _, _ => None end = Some z <->
      taken t /\ (cpp20 = true \/ c_abstract d = false) /\ o = z).
  { intros d [qc qv t] o. unfold GetClassType, GetMemberType, taken, returnable, converts, prvalue. cbn [q_ty q_const q_volatile].
    replace (run (body o)) with o by (cbn; lia).
    destruct cpp20, (c_abstract d), t; cbn [negb andb is_class q_ty q_const q_volatile]; rewrite ?REF;
      destruct qc, qv; cbn [implb andb]; split;
      try discriminate; try (intros E; injection E as ->; repeat split; auto); try (intros ((? & ?) & ?); discriminate); try (intros (? & [?|?] & ?); discriminate);
      try (intros (_ & _ & ->); reflexivity); try (intros ([] & _)). }
  split.
  - intros H. destruct (lookup c n) as [|[d e] [|y l]] eqn:L; [discriminate| |destruct e; discriminate].
    apply (lookup_single c n d e W) in L as ((p & b & P) & U). split; [|exact U].
    destruct e as [t o| | | |]; try discriminate. cbn [andb] in H. apply CV in H as (T & A & ->). exists p, b, d, t. auto.
  - intros ((p & b & d & t & P & T & A) & U). rewrite (proj2 (lookup_single c n d (EData t z) W)) by eauto.
    cbn [andb]. apply CV. auto.
Qed.

(** So it is the offset in [c] exactly when the subobject of the declaring class starts where the object does: for members of [c]
    itself, … *)
Theorem C139_own : forall cpp20 a bs ms n t o, wf (Class a bs ms) -> In (n, EData t o) ms -> taken t -> (cpp20 = true \/ a = false) ->
  NazaraOffsetOf cpp20 false (Class a bs ms) n = Some o /\ offset_in (Class a bs ms) n o.
Proof.
  intros cpp20 a bs ms n t o W I T A. pose proof (place_here a bs ms n (EData t o) I) as P. split.
  - apply C139_declaring_partial; [exact W|]. split; [exists [], 0, (Class a bs ms), t; auto|].
    assert (H : forall p b d e, place (Class a bs ms) n p b d e -> p = []).
    { intros p b d e H. inversion H as [|? ? ? ? ? ? ? ? ? ? ? NI]; subst; [reflexivity|]. now destruct (NI (EData t o)). }
    intros p b d e p' b' d' e' H1 H2. now rewrite (H _ _ _ _ H1), (H _ _ _ _ H2).
  - exists [], 0, (Class a bs ms), t, o. split; [exact P|lia].
Qed.
(** … and for inherited ones whose base is at the start. *)
Theorem C139_inherited_partial : forall cpp20 c n z p b d e, wf c -> NazaraOffsetOf cpp20 false c n = Some z -> place c n p b d e ->
  offset_in c n (b + z) /\ (offset_in c n z <-> b = 0).
Proof.
  intros cpp20 c n z p b d e W H P. apply C139_declaring_partial in H as ((p' & b' & d' & t & P' & _ & _) & U); [|exact W].
  assert (F : forall q b1 d1 e1 q' b2 d2 e2, place c n q b1 d1 e1 -> place c n q' b2 d2 e2 -> b1 = b2 /\ d1 = d2 /\ e1 = e2).
  { clear - U W. intros q b1 d1 e1 q' b2 d2 e2 H1 H2. pose proof (U _ _ _ _ _ _ _ _ H1 H2) as <-. clear U.
    revert b2 d2 e2 H2. induction H1 as [a bs ms n e I|a bs ms n i o c q b d e NI E H1 IH]; intros b2 d2 e2 H2;
      inversion H2 as [? ? ? ? ? I2|? ? ? ? ? o2 c2 ? b2' ? ? NI2 E2 H2']; subst.
    - inversion W as [? ? ? N _]; subst. apply (declared_spec n ms _ N) in I, I2. rewrite I in I2. injection I2 as ->. auto.
    - rewrite E in E2. injection E2 as <- <-. inversion W as [? ? ? _ WB]; subst. apply nth_error_In in E.
      destruct (IH (WB _ _ E) _ _ _ H2') as (-> & -> & ->). auto. }
  destruct (F _ _ _ _ _ _ _ _ P P') as (-> & -> & ->). split.
  - exists p', b', d', t, z. auto.
  - split.
    + intros (q & b2 & d2 & t2 & o2 & P2 & Z2). destruct (F _ _ _ _ _ _ _ _ P' P2) as (E1 & _ & E). injection E as _ E. lia.
    + intros ->. exists p', 0, d', t, z. split; [exact P'|lia].
Qed.

(** Members of a second base: struct A { int a; }; struct B { int b; }; struct D : A, B { int d; };
    The offset of b in D is 4 and the macro gives 0, which is the offset of a. *)
Definition int_ := Q false false (TyScalar 0).
Definition clsA := Class false [] [("a", EData int_ 0)].
Definition clsB := Class false [] [("b", EData int_ 0)].
Definition clsD := Class false [(0, clsA); (4, clsB)] [("d", EData int_ 8)].
Lemma wf_D : wf clsD.
Proof.
  constructor; [repeat constructor; intros []|]. intros o c [E|[E|[]]]; injection E as <- <-;
    (constructor; [repeat constructor; intros []|intros ? ? []]).
Qed.
Lemma place_b : place clsD "b" [1%nat] 4 clsB (EData int_ 0).
Proof.
  change 4 with (4 + 0). apply place_base with (c := clsB); [intros e [E|[]]; discriminate|reflexivity|]. apply place_here. now left.
Qed.
Theorem C139_inherited_refuted : exists c n m z o, wf c /\ n <> m /\
  NazaraOffsetOf true false c n = Some z /\ ~ offset_in c n z /\ offset_in c n o /\
  NazaraOffsetOf true false c m = Some z /\ offset_in c m z.
Proof.
  exists clsD, "b", "a", 0, 4. split; [exact wf_D|]. split; [discriminate|]. split; [reflexivity|].
  destruct (C139_inherited_partial true clsD "b" 0 _ _ _ _ wf_D eq_refl place_b) as (H1 & H2).
  split; [intros H; apply H2 in H; discriminate|]. split; [exact H1|]. split; [reflexivity|].
  exists [0%nat], 0, clsA, int_, 0. split; [|reflexivity].
  change 0 with (0 + 0). apply place_base with (c := clsA); [intros e [E|[]]; discriminate|reflexivity|]. apply place_here. now left.
Qed.
(** With one base too: struct A { int a; }; struct V : A { virtual ~V(); }; the pointer to the virtual functions comes first. *)
Definition clsV := Class false [(8, clsA)] [].
Example C139_virtual : NazaraOffsetOf true false clsV "a" = Some 0 /\ place clsV "a" [0%nat] 8 clsA (EData int_ 0).
Proof.
  split; [reflexivity|]. change 8 with (8 + 0). apply place_base with (c := clsA); [intros e []|reflexivity|]. apply place_here. now left.
Qed.

(** Members of array type and const members of scalar type cannot be named, in any class; offsetof takes both. *)
Theorem C139_types_refuted : forall cpp20 k a bs ms n t o, wf (Class a bs ms) -> In (n, EData t o) ms -> ~ taken t ->
  NazaraOffsetOf cpp20 k (Class a bs ms) n = None /\ offset_in (Class a bs ms) n o.
Proof.
  intros cpp20 k a bs ms n t o W I T. split; [|exists [], 0, (Class a bs ms), t, o; split; [now constructor|lia]].
  destruct (NazaraOffsetOf cpp20 false (Class a bs ms) n) as [z|] eqn:E.
  - apply C139_declaring_partial in E as ((p & b & d & t' & P & T' & _) & _); [|exact W]. exfalso.
    inversion P as [? ? ? ? ? I'|? ? ? ? ? ? ? ? ? ? ? NI]; subst; [|now destruct (NI (EData t o))].
    inversion W as [? ? ? N _]; subst. apply (declared_spec n ms _ N) in I, I'. rewrite I in I'. injection I' as -> _. contradiction.
  - unfold NazaraOffsetOf in *. destruct (address_of (Class a bs ms) n) as [[d t' o'| |]|]; try reflexivity.
    destruct (GetClassType cpp20 _); [|reflexivity]. destruct (GetMemberType cpp20 _); [|reflexivity].
    destruct (converts t' q); [|reflexivity]. discriminate.
Qed.
Example C139_types_nonvacuous : ~ taken (Q false false (TyArray (TyScalar 0) 4)) /\ ~ taken (Q true false (TyScalar 0)) /\
  taken (Q true true (TyClass 0)) /\ taken int_.
Proof. split; [intros []|]. split; [intros (H & _); discriminate H|]. repeat split. Qed.

(** Although OffsetOf is constexpr, it is never a constant. *)
Theorem C139_constant_refuted : forall cpp20 c n, NazaraOffsetOf cpp20 true c n = None.
Proof.
  intros. unfold NazaraOffsetOf. destruct (address_of c n) as [[d t o| |]|]; try reflexivity.
  destruct (GetClassType cpp20 _); [|reflexivity]. destruct (GetMemberType cpp20 _); [|reflexivity]. now destruct (converts t q).
Qed.
(** Members of members and elements of arrays cannot be named; offsetof takes both. *)
Theorem C139_designator_refuted : forall cpp20 k c d n i,
  NazaraOffsetOf_designator cpp20 k c (DMember d n) = None /\ NazaraOffsetOf_designator cpp20 k c (DElement d i) = None.
Proof. repeat split. Qed.
(** Members of abstract classes, before C++20. *)
Theorem C139_abstract_refuted : forall k a bs ms n e, wf (Class a bs ms) -> a = true -> In (n, e) ms ->
  NazaraOffsetOf false k (Class a bs ms) n = None.
Proof.
  intros k a bs ms n e W -> I. unfold NazaraOffsetOf, address_of. rewrite lookup_eq. inversion W as [? ? ? N _]; subst.
  apply (declared_spec n ms e N) in I. rewrite I. destruct e; reflexivity.
Qed.

(** ** AccessByOffset *)

(** What is asked for is what is given, at base + offset; it compiles exactly for references and pointers that do not drop const, and base
    pointers without volatile. *)
Definition pointee (T : target) : option qty := match T with LRef t | Ptr t => Some t | RRef _ | Value _ => None end.
Theorem C139_access : forall T p offset T' a,
  AccessByOffset_typed T p offset = Some (T', a) <->
  T' = T /\ a = b_address p + offset /\ b_volatile p = false /\ exists t, pointee T = Some t /\ (b_const p = true -> q_const t = true).
Proof.
  intros T [bc bv ad] offset T' a. unfold AccessByOffset_typed, choose, reinterpret_ok, pointee. cbn [b_const b_volatile b_address].
  destruct bv; [split; [discriminate|intros (_ & _ & ? & _); discriminate]|].
  destruct bc, T as [[qc qv t]|q|[qc qv t]|q]; cbn [q_const]; try destruct qc; cbn [implb]; split;
    try discriminate; try (intros E; injection E as <- <-; repeat split; eexists; split; [reflexivity|auto]);
    try (intros (-> & -> & _ & _); reflexivity); try (intros (_ & _ & _ & t' & E & H); discriminate E);
    try (intros (_ & _ & _ & t' & E & H); injection E as <-; specialize (H eq_refl); discriminate).
Qed.
(** Const objects are never given without const. *)
Theorem C139_const : forall T p offset T' a t, b_const p = true -> AccessByOffset_typed T p offset = Some (T', a) -> pointee T' = Some t ->
  q_const t = true.
Proof. intros T p offset T' a t C H P. apply C139_access in H as (-> & _ & _ & t' & E & K). rewrite P in E. injection E as ->. auto. Qed.
Example C139_access_nonvacuous :
  AccessByOffset_typed (LRef int_) (BP false false 16) 8 = Some (LRef int_, 24) /\
  AccessByOffset_typed (LRef int_) (BP true false 16) 8 = None /\
  AccessByOffset_typed (Ptr (Q true false (TyScalar 0))) (BP true false 16) 8 = Some (Ptr (Q true false (TyScalar 0)), 24).
Proof. repeat split. Qed.
(** Together: a member that the class declares, reached from any object of the class, is at its own address. *)
Theorem C139_member : forall cpp20 a bs ms n t o object qt, wf (Class a bs ms) -> In (n, EData t o) ms -> taken t ->
  (cpp20 = true \/ a = false) -> b_volatile object = false -> qt = Q (q_const t || b_const object) (q_volatile t) (q_ty t) ->
  exists z, NazaraOffsetOf cpp20 false (Class a bs ms) n = Some z /\
    AccessByOffset_typed (LRef qt) object z = Some (LRef qt, b_address object + o).
Proof.
  intros cpp20 a bs ms n t o object vf W I T A V ->. exists o. split; [now apply (C139_own cpp20 a bs ms n t o)|].
  apply C139_access. repeat split; auto. eexists. split; [reflexivity|]. intros C. cbn. rewrite C. apply orb_true_r.
Qed.

Print Assumptions C139_declaring_partial.
Print Assumptions C139_own.
Print Assumptions C139_inherited_partial.
Print Assumptions C139_inherited_refuted.
Print Assumptions C139_types_refuted.
Print Assumptions C139_constant_refuted.
Print Assumptions C139_designator_refuted.
Print Assumptions C139_abstract_refuted.
Print Assumptions C139_access.
Print Assumptions C139_const.
Print Assumptions C139_member.
