(** * C143: bitsets written to a stream and read back *)

From Coq Require Import List Arith NArith Bool Lia.
Import ListNotations.
From Verif Require Import Base BitsetModel BitsetSpec BitsetBits BitsetProofs PropBitset BitsetStreamModel.
Open Scope nat_scope.

Definition digit (c : N) : Prop := c = 48%N \/ c = 49%N.

Lemma s_string_digits l : Forall digit (s_string l).
Proof. unfold s_string. apply Forall_map. apply Forall_forall. intros [] _; [right|left]; reflexivity. Qed.

Lemma s_string_length l : length (s_string l) = length l.
Proof. unfold s_string. now rewrite map_length, rev_length. Qed.

Lemma digit_not_space c : digit c -> space c = false.
Proof. intros [-> | ->]; reflexivity. Qed.

(** The bits a text of digits stands for, the leftmost character being the highest bit. *)
Definition bits_of (s : list N) : list bool := rev (map (fun c => (c =? 49)%N) s).

Lemma bits_of_string l : bits_of (s_string l) = l.
Proof.
  unfold bits_of, s_string. rewrite map_map, <- map_rev, rev_involutive.
  induction l as [|[] l IH]; cbn; congruence.
Qed.

Lemma parsed w s : width w -> Forall digit s ->
  exists b, of_string w s = Done b /\ repr w b (bits_of s).
Proof. intros Hw H. exact (of_string_repr w s H). Qed.

(** ** One bitset: the text that is written *)

(** A bitset is written highest bit first, padded to the width of the stream, which is used up;
    a stream that has failed is left alone. *)
Theorem C143_written : forall w, width w -> forall o b l, repr w b l ->
  exists o', insert_bitset w o b = Done o' /\
  (good o = false -> o' = o) /\
  (good o = true ->
     good o' = true /\ width_ o' = 0 /\ fill_ o' = fill_ o /\ left_ o' = left_ o /\
     exists before after,
       text o' = text o ++ repeat (fill_ o) before ++ s_string l ++ repeat (fill_ o) after /\
       before + length l + after = Nat.max (width_ o) (length l) /\
       (if left_ o then before = 0 else after = 0)).
Proof.
  intros w Hw o b l R. unfold insert_bitset. rewrite (ToString_repr w b l R). cbn [bind].
  eexists. split; [reflexivity|]. unfold insert. split; intros ->; [reflexivity|].
  cbn. do 4 (split; [reflexivity|]). unfold padded. rewrite s_string_length.
  destruct (left_ o).
  - exists 0, (width_ o - length l). cbn. split; [reflexivity|]. split; [lia|reflexivity].
  - exists (width_ o - length l), 0. cbn. rewrite app_nil_r. split; [reflexivity|].
    split; [lia|reflexivity].
Qed.

(** ** Padded text read as a bitset *)

(** Padding with '0' on the left only adds zero bits at the top; on the right it shifts the bits
    up; padding with anything that is not a digit makes the constructor fail its assertion. *)
Theorem C143_padded : forall w, width w -> forall o l,
  (fill_ o = 48%N -> left_ o = false ->
     exists b, of_string w (padded o (s_string l)) = Done b /\
               repr w b (l ++ repeat false (width_ o - length l))) /\
  (fill_ o = 48%N -> left_ o = true ->
     exists b, of_string w (padded o (s_string l)) = Done b /\
               repr w b (repeat false (width_ o - length l) ++ l)) /\
  (~ digit (fill_ o) -> length l < width_ o ->
     of_string w (padded o (s_string l)) = Fault FAssert).
Proof.
  intros w Hw o l.
  assert (RZ : forall n, bits_of (repeat 48%N n) = repeat false n).
  { intros n. unfold bits_of. induction n as [|n IH]; [reflexivity|].
    cbn [repeat map rev]. rewrite IH. symmetry. apply (repeat_cons n false). }
  assert (RA : forall a b, bits_of (a ++ b) = bits_of b ++ bits_of a)
    by (intros; unfold bits_of; now rewrite map_app, rev_app_distr).
  assert (DZ : forall n, Forall digit (repeat 48%N n))
    by (intros n; apply Forall_forall; intros x Hx; apply repeat_spec in Hx; now left).
  unfold padded. rewrite s_string_length. split; [|split].
  - intros -> ->. destruct (parsed w (repeat 48%N (width_ o - length l) ++ s_string l) Hw) as (b & E & R).
    { apply Forall_app. split; [apply DZ|apply s_string_digits]. }
    exists b. split; [exact E|]. rewrite RA, RZ, bits_of_string in R. exact R.
  - intros -> ->. destruct (parsed w (s_string l ++ repeat 48%N (width_ o - length l)) Hw) as (b & E & R).
    { apply Forall_app. split; [apply s_string_digits|apply DZ]. }
    exists b. split; [exact E|]. rewrite RA, RZ, bits_of_string in R. exact R.
  - intros ND HL. apply C09_bad_character; [exact Hw|]. intros F.
    destruct (width_ o - length l) as [|n] eqn:E; [lia|]. apply ND.
    destruct (left_ o); apply Forall_app in F; destruct F as [F1 F2].
    + now inversion F2.
    + now inversion F1.
Qed.

(** ** Sequences *)

Lemma skip_none s r : s <> [] -> Forall digit s -> skip_spaces (s ++ r) = s ++ r.
Proof.
  intros N F. destruct s as [|c s]; [congruence|]. inversion F as [|? ? Hc ?]; subst.
  cbn. now rewrite (digit_not_space c Hc).
Qed.

Lemma word_digits s sep r : Forall digit s -> space sep = true ->
  word (s ++ sep :: r) = (s, sep :: r).
Proof.
  intros F Hs. induction F as [|c s Hc _ IH]; cbn; [now rewrite Hs|].
  now rewrite (digit_not_space c Hc), IH.
Qed.

Lemma read_step f w l : read_all (S f) w l =
  match extract l with
  | None => Done []
  | Some (t, r) => b <- of_string w t ;; bs <- read_all f w r ;; Done (b :: bs)
  end.
Proof. reflexivity. Qed.

Lemma insert_all_text w sep : width w -> forall bs ls o,
  good o = true -> width_ o = 0 -> Forall2 (repr w) bs ls ->
  exists o', insert_all w sep o bs = Done o' /\
    text o' = text o ++ concat (map (fun l => s_string l ++ [sep]) ls).
Proof.
  intros Hw bs ls o Hg H0 F. revert o Hg H0. induction F as [|b l bs ls R _ IH]; intros o Hg H0.
  { exists o. split; [reflexivity|]. cbn. now rewrite app_nil_r. }
  cbn [insert_all]. unfold insert_bitset. rewrite (ToString_repr w b l R). cbn [bind].
  set (o1 := insert (insert o (s_string l)) [sep]).
  assert (E1 : o1 = mkOut (text o ++ s_string l ++ [sep]) true 0 (fill_ o) (left_ o)).
  { unfold o1, insert. rewrite Hg. cbn. unfold padded. rewrite H0. cbn.
    destruct (left_ o); cbn; rewrite ?app_nil_r, <- ?app_assoc; reflexivity. }
  destruct (IH o1) as (o' & E & T); [now rewrite E1..|]. exists o'. split; [exact E|].
  rewrite T, E1. cbn. now rewrite <- !app_assoc.
Qed.

(** Bitsets that are not empty, written with a space after each and read back word by word, are the
    bitsets that were written, whatever their number and sizes. *)
Theorem C143_sequence_partial : forall w, width w -> forall bs ls sep fill left,
  Forall2 (repr w) bs ls -> Forall (fun l => l <> []) ls ->
  In sep [32; 9; 10; 11; 12; 13]%N ->
  exists o, insert_all w sep (mkOut [] true 0 fill left) bs = Done o /\
    read_all (S (length bs)) w (text o) = Done bs.
Proof.
  intros w Hw bs ls sep fill left F NE Hsep.
  assert (Hs : space sep = true) by (repeat destruct Hsep as [<-|Hsep]; reflexivity || destruct Hsep).
  destruct (insert_all_text w sep Hw bs ls (mkOut [] true 0 fill left) eq_refl eq_refl F) as (o & E & T).
  exists o. split; [exact E|]. rewrite T. cbn [text app]. clear E T o.
  assert (G : forall pre, pre = [] \/ pre = [sep] ->
    read_all (S (length bs)) w (pre ++ concat (map (fun l => s_string l ++ [sep]) ls)) = Done bs).
  { revert NE. induction F as [|b l bs ls R F IH]; intros NE pre Hp.
    - cbn. unfold extract. destruct Hp as [-> | ->]; cbn; [reflexivity|]. now rewrite Hs.
    - inversion NE as [|? ? N1 N2]; subst. cbn [length map concat]. rewrite read_step. unfold extract at 1.
      rewrite <- app_assoc. cbn [app].
      set (rest := concat _) in *.
      assert (N : s_string l <> []).
      { intros X. apply N1. apply (f_equal (@length N)) in X. rewrite s_string_length in X.
        now destruct l. }
      assert (SK : skip_spaces (pre ++ s_string l ++ sep :: rest) = s_string l ++ sep :: rest).
      { destruct Hp as [-> | ->]; cbn [app skip_spaces]; rewrite ?Hs;
          apply skip_none; trivial; apply s_string_digits. }
      rewrite SK. destruct (s_string l ++ sep :: rest) as [|c t] eqn:E; [destruct (s_string l); discriminate|].
      rewrite <- E, word_digits by (trivial; apply s_string_digits).
      destruct (parsed w (s_string l) Hw (s_string_digits l)) as (b' & E' & R').
      rewrite bits_of_string in R'. rewrite E'. cbn [bind].
      specialize (IH N2 [sep] (or_intror eq_refl)). cbn [app] in IH. rewrite IH. cbn [bind]. do 2 f_equal. exact (repr_inj w b' b l R' R). }
  exact (G [] (or_introl eq_refl)).
Qed.

(** An empty bitset is written as nothing: reading back loses it. *)
Theorem C143_empty_refuted : forall w, width w -> forall b1 b2 l1 l2,
  repr w b1 l1 -> repr w b2 l2 -> l1 <> [] -> l2 <> [] ->
  exists e o, repr w e [] /\
    insert_all w 32 (mkOut [] true 0 32 false) [b1; e; b2] = Done o /\
    read_all 4 w (text o) = Done [b1; b2].
Proof.
  intros w Hw b1 b2 l1 l2 R1 R2 N1 N2.
  assert (RE : repr w (mkB [] 0) []).
  { destruct (of_string_repr w [] (Forall_nil _)) as (e & E & R). cbn in E.
    unfold ComputeBlockCount in E. destruct w as [|w]; [destruct Hw|]; injection E as <-; exact R. }
  exists (mkB [] 0).
  assert (F : Forall2 (repr w) [b1; mkB [] 0; b2] [l1; []; l2])
    by (constructor; [exact R1|constructor; [exact RE|constructor; [exact R2|constructor]]]).
  destruct (insert_all_text w 32 Hw _ _ (mkOut [] true 0 32 false) eq_refl eq_refl F) as (o & E & T).
  exists o. split; [exact RE|]. split; [exact E|]. rewrite T. cbn [text map concat app].
  rewrite app_nil_r, <- !app_assoc. change (s_string []) with (@nil N). cbn [app].
  assert (NN : forall l, l <> [] -> s_string l <> []).
  { intros l N X. apply N. apply (f_equal (@length _)) in X. rewrite s_string_length in X. now destruct l. }
  assert (P : forall b l, repr w b l -> of_string w (s_string l) = Done b).
  { intros b l R. destruct (parsed w (s_string l) Hw (s_string_digits l)) as (b' & E' & R').
    rewrite bits_of_string in R'. rewrite E'. f_equal. exact (repr_inj w b' b l R' R). }
  assert (X : forall f p l b r, skip_spaces (p ++ s_string l ++ 32%N :: r) = s_string l ++ 32%N :: r ->
            l <> [] -> repr w b l ->
            read_all (S f) w (p ++ s_string l ++ 32%N :: r) =
            (bs <- read_all f w (32%N :: r) ;; Done (b :: bs))).
  { intros f p l b r SK N R. rewrite read_step. unfold extract. rewrite SK.
    destruct (s_string l ++ 32%N :: r) as [|c t] eqn:Q; [destruct (s_string l); discriminate|].
    rewrite <- Q, word_digits by (reflexivity || apply s_string_digits). now rewrite (P b l R). }
  change (s_string l1 ++ 32%N :: 32%N :: s_string l2 ++ [32%N])
    with ([] ++ s_string l1 ++ 32%N :: 32%N :: s_string l2 ++ [32%N]).
  rewrite (X 3 [] l1 b1); [|cbn [app]; apply skip_none; [now apply NN|apply s_string_digits]|trivial|trivial].
  change (32%N :: 32%N :: s_string l2 ++ [32%N]) with ([32%N; 32%N] ++ s_string l2 ++ 32%N :: []).
  rewrite (X 2 _ l2 b2); [reflexivity| |trivial|trivial].
  cbn [app skip_spaces space N.eqb Pos.eqb orb]. apply skip_none; [now apply NN|apply s_string_digits].
Qed.

(** A width makes one bitset read back with other bits or not at all, for every bitset shorter than
    it: with a fill of '0' and left adjustment the lowest bits read are all zero. *)
Theorem C143_width_refuted : forall w, width w -> forall l n, length l < n ->
  exists b, of_string w (padded (mkOut [] true n 48 true) (s_string l)) = Done b /\
    GetSize b = n /\ Test w b 0 = Done false /\
    (forall i, i < length l -> Test w b (n - length l + i) = Done (nth i l false)).
Proof.
  intros w Hw l n HL.
  destruct (proj1 (proj2 (C143_padded w Hw (mkOut [] true n 48 true) l)) eq_refl eq_refl) as (b & E & R).
  cbn [width_] in R. exists b. split; [exact E|].
  assert (L : length (repeat false (n - length l) ++ l) = n) by (rewrite app_length, repeat_length; lia).
  split; [unfold GetSize; rewrite <- L; apply R|]. split.
  - rewrite (Test_repr w b _ 0 R), L. destruct (Nat.ltb_spec 0 n); [|lia]. unfold sbit.
    rewrite app_nth1 by (rewrite repeat_length; lia). do 2 f_equal.
    destruct (n - length l) eqn:Q; [lia|reflexivity].
  - intros i Hi. rewrite (Test_repr w b _ _ R), L. destruct (Nat.ltb_spec (n - length l + i) n); [|lia].
    unfold sbit. rewrite app_nth2 by (rewrite repeat_length; lia). rewrite repeat_length.
    do 2 f_equal. lia.
Qed.

Example C143_example :
  (o <- insert_bitset 8 (mkOut [62]%N true 6 48 false) (mkB [5]%N 3) ;; Done (text o))
    = Done [62; 48; 48; 48; 49; 48; 49]%N /\
  (o <- insert_all 8 10 (mkOut [] true 0 32 false) [mkB [5]%N 3; mkB [255; 1]%N 9] ;;
   read_all 3 8 (text o)) = Done [mkB [5]%N 3; mkB [255; 1]%N 9] /\
  (o <- insert_bitset 8 (mkOut [] true 6 42 false) (mkB [5]%N 3) ;; read_all 3 8 (text o)) = Fault FAssert.
Proof. repeat split; reflexivity. Qed.

Print Assumptions C143_written.
Print Assumptions C143_padded.
Print Assumptions C143_sequence_partial.
Print Assumptions C143_empty_refuted.
Print Assumptions C143_width_refuted.
