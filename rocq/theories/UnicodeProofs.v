(** Proofs about the conversions of StringModel.v between UTF-8 and UTF-16. *)
From Verif Require Import Base CInt StringModel.
Open Scope Z_scope.
Local Ltac Zify.zify_post_hook ::= Z.div_mod_to_equations.

Lemma ltb_t a b : a < b -> (a <? b) = true. Proof. lia. Qed.
Lemma ltb_f a b : b <= a -> (a <? b) = false. Proof. lia. Qed.
Lemma scalar_range c : scalar c = true -> 0 <= c < 0xD800 \/ 0xE000 <= c < 0x110000.
Proof. unfold scalar. lia. Qed.

Lemma utf8_decode_char c l : scalar c = true -> utf8_decode (utf8_char c ++ l) = option_map (cons c) (utf8_decode l).
Proof.
  intros S. pose proof (scalar_range c S) as R. unfold utf8_char.
  destruct (Z.ltb_spec c 0x80) as [H1|H1]; [|destruct (Z.ltb_spec c 0x800) as [H2|H2]; [|destruct (Z.ltb_spec c 0x10000) as [H3|H3]]].
  - cbn [app utf8_decode]. now rewrite ltb_t by lia.
  - cbn [app utf8_decode]. rewrite ltb_f by lia. set (a := 0xC0 + c / 64). set (b := 0x80 + c mod 64).
    assert (A : 0xC2 <= a < 0xE0) by (subst a; lia). assert (B : 0x80 <= b <= 0xBF) by (subst b; lia).
    replace ((0xC2 <=? a) && (a <? 0xE0)) with true by lia. replace (continuation b) with true by (unfold continuation; lia).
    replace ((a - 0xC0) * 64 + (b - 0x80)) with c by (subst a b; lia). reflexivity.
  - cbn [app utf8_decode]. rewrite ltb_f by lia. set (a := 0xE0 + c / 4096). set (b := 0x80 + (c / 64) mod 64). set (d := 0x80 + c mod 64).
    assert (A : 0xE0 <= a < 0xF0) by (subst a; lia). assert (B : 0x80 <= b <= 0xBF) by (subst b; lia). assert (D : 0x80 <= d <= 0xBF) by (subst d; lia).
    replace ((0xC2 <=? a) && (a <? 0xE0)) with false by lia. replace ((0xE0 <=? a) && (a <? 0xF0)) with true by lia.
    replace ((a - 0xE0) * 4096 + (b - 0x80) * 64 + (d - 0x80)) with c by (subst a b d; lia). cbn zeta. rewrite S.
    replace (continuation b) with true by (unfold continuation; lia). replace (continuation d) with true by (unfold continuation; lia).
    replace (0x800 <=? c) with true by lia. reflexivity.
  - cbn [app utf8_decode]. rewrite ltb_f by lia. set (a := 0xF0 + c / 262144). set (b := 0x80 + (c / 4096) mod 64). set (d := 0x80 + (c / 64) mod 64). set (e := 0x80 + c mod 64).
    assert (A : 0xF0 <= a < 0xF5) by (subst a; lia). assert (B : 0x80 <= b <= 0xBF) by (subst b; lia). assert (D : 0x80 <= d <= 0xBF) by (subst d; lia).
    assert (E : 0x80 <= e <= 0xBF) by (subst e; lia).
    replace ((0xC2 <=? a) && (a <? 0xE0)) with false by lia. replace ((0xE0 <=? a) && (a <? 0xF0)) with false by lia.
    replace ((a - 0xF0) * 262144 + (b - 0x80) * 4096 + (d - 0x80) * 64 + (e - 0x80)) with c by (subst a b d e; lia). cbn zeta. rewrite S.
    replace (continuation b) with true by (unfold continuation; lia). replace (continuation d) with true by (unfold continuation; lia).
    replace (continuation e) with true by (unfold continuation; lia). replace (0x10000 <=? c) with true by lia.
    replace ((0xF0 <=? a) && (a <? 0xF5)) with true by lia. reflexivity.
Qed.
Lemma utf8_decode_encode t : Forall (fun c => scalar c = true) t -> utf8_decode (utf8_encode t) = Some t.
Proof.
  induction 1 as [|c t S _ IH]; [reflexivity|]. cbn [utf8_encode flat_map]. rewrite utf8_decode_char by exact S.
  unfold utf8_encode in IH. now rewrite IH.
Qed.

(** A text that decodes is the encoding of scalar values. *)
Definition bytes (l : list Z) : Prop := Forall (fun b => 0 <= b < 256) l.
Lemma utf8_decode_sound l : bytes l -> forall t, utf8_decode l = Some t -> Forall (fun c => scalar c = true) t /\ utf8_encode t = l.
Proof.
  induction l as [l IH] using (well_founded_induction (well_founded_ltof _ (@length Z))). unfold ltof in IH.
  assert (K : forall h r c t, l = h ++ r -> bytes l -> (0 < length h)%nat -> scalar c = true -> utf8_char c = h -> option_map (cons c) (utf8_decode r) = Some t ->
    Forall (fun c => scalar c = true) t /\ utf8_encode t = l).
  { intros h r c t -> BB L S U E. destruct (utf8_decode r) as [u|] eqn:D; [|discriminate]. cbn in E. injection E as <-.
    assert (BR : bytes r) by (apply Forall_app in BB; apply BB). destruct (IH r ltac:(rewrite app_length; lia) BR u D) as (F & X).
    split; [now constructor|]. cbn [utf8_encode flat_map]. fold (utf8_encode u). now rewrite X, U. }
  destruct l as [|a l1]; intros BB t E.
  - injection E as <-. split; [constructor | reflexivity].
  - cbn [utf8_decode] in E. inversion BB as [|? ? Ba BB1]; subst. destruct (Z.ltb_spec a 0x80) as [H|H].
    + apply (K [a] l1 a t); trivial; [cbn; lia | unfold scalar; lia |]. unfold utf8_char. now rewrite ltb_t.
    + destruct l1 as [|b l2]; [discriminate|]. inversion BB1 as [|? ? Bb BB2]; subst. destruct ((0xC2 <=? a) && (a <? 0xE0)) eqn:H2.
      { destruct (continuation b) eqn:C1; [|discriminate]. unfold continuation in C1.
        apply (K [a; b] l2 _ t eq_refl BB) in E; [exact E | cbn; lia | unfold scalar; lia |].
        set (c := (a - 192) * 64 + (b - 128)). unfold utf8_char. rewrite ltb_f, ltb_t by (subst c; lia). subst c. f_equal; [lia|]. f_equal. lia. }
      destruct l2 as [|d l3]; [discriminate|]. inversion BB2 as [|? ? Bd BB3]; subst. destruct ((0xE0 <=? a) && (a <? 0xF0)) eqn:H3.
      { set (c := (a - 224) * 4096 + (b - 128) * 64 + (d - 128)) in *. cbn zeta in E.
        destruct (continuation b) eqn:C1; [|discriminate]. destruct (continuation d) eqn:C2; [|discriminate]. cbn [andb] in E.
        destruct (0x800 <=? c) eqn:C3; [|discriminate]. destruct (scalar c) eqn:S; [|discriminate]. unfold continuation in C1, C2.
        apply (K [a; b; d] l3 _ t eq_refl BB) in E; [exact E | cbn; lia | exact S |].
        unfold utf8_char. rewrite (ltb_f c 0x80), (ltb_f c 0x800), ltb_t by (subst c; lia). subst c. f_equal; [lia|]. f_equal; [lia|]. f_equal. lia. }
      destruct l3 as [|e l4]; [discriminate|]. inversion BB3 as [|? ? Be BB4]; subst.
      set (c := (a - 240) * 262144 + (b - 128) * 4096 + (d - 128) * 64 + (e - 128)) in *. cbn zeta in E.
      destruct (0xF0 <=? a) eqn:A1; [|discriminate]. destruct (a <? 0xF5) eqn:A2; [|discriminate].
      destruct (continuation b) eqn:C1; [|discriminate]. destruct (continuation d) eqn:C2; [|discriminate]. destruct (continuation e) eqn:C3; [|discriminate].
      cbn [andb] in E. destruct (0x10000 <=? c) eqn:C4; [|discriminate]. destruct (scalar c) eqn:S; [|discriminate]. unfold continuation in C1, C2, C3.
      apply (K [a; b; d; e] l4 _ t eq_refl BB) in E; [exact E | cbn; lia | exact S |].
      unfold utf8_char. rewrite (ltb_f c 0x80), (ltb_f c 0x800), (ltb_f c 0x10000) by (subst c; lia). subst c.
      f_equal; [lia|]. f_equal; [lia|]. f_equal; [lia|]. f_equal. lia.
Qed.

Lemma utf16_decode_char c l : scalar c = true -> utf16_decode (utf16_char c ++ l) = option_map (cons c) (utf16_decode l).
Proof.
  intros S. pose proof (scalar_range c S) as R. unfold utf16_char. destruct (Z.ltb_spec c 0x10000) as [H|H]; cbn [app utf16_decode].
  - replace ((0xD800 <=? c) && (c <? 0xDC00)) with false by lia. replace ((0xDC00 <=? c) && (c <? 0xE000)) with false by lia. reflexivity.
  - set (a := 0xD800 + (c - 0x10000) / 1024). set (b := 0xDC00 + (c - 0x10000) mod 1024).
    assert (A : 0xD800 <= a < 0xDC00) by (subst a; lia). assert (B : 0xDC00 <= b < 0xE000) by (subst b; lia).
    replace ((0xD800 <=? a) && (a <? 0xDC00)) with true by lia. replace ((0xDC00 <=? b) && (b <? 0xE000)) with true by lia.
    replace (0x10000 + (a - 0xD800) * 1024 + (b - 0xDC00)) with c by (subst a b; lia). reflexivity.
Qed.

Definition generic_char (c : Z) : Z := if c =? backslash then slash else c.
Lemma generic_scalar c : scalar c = true -> scalar (generic_char c) = true.
Proof. unfold generic_char, backslash, slash. destruct (Z.eqb_spec c 0x5C); [reflexivity | trivial]. Qed.
Lemma generic_utf16_char c : scalar c = true -> map generic_char (utf16_char c) = utf16_char (generic_char c).
Proof.
  intros S. pose proof (scalar_range c S) as R. unfold utf16_char, generic_char, backslash, slash. destruct (Z.ltb_spec c 0x10000) as [H|H].
  - cbn [map]. destruct (Z.eqb_spec c 0x5C); [reflexivity|]. now rewrite ltb_t.
  - cbn [map]. replace (c =? 0x5C) with false by lia. rewrite ltb_f by lia.
    set (a := 0xD800 + (c - 0x10000) / 1024). set (b := 0xDC00 + (c - 0x10000) mod 1024).
    assert (A : 0xD800 <= a) by (subst a; lia). assert (B : 0xDC00 <= b) by (subst b; lia).
    replace (a =? 0x5C) with false by lia. replace (b =? 0x5C) with false by lia. reflexivity.
Qed.
Lemma generic_utf8_char c : scalar c = true -> map generic_char (utf8_char c) = utf8_char (generic_char c).
Proof.
  intros S. pose proof (scalar_range c S) as R. unfold utf8_char, generic_char, backslash, slash.
  assert (N : forall x, 0x80 <= x -> (if x =? 0x5C then 0x2F else x) = x) by (intros x X; now replace (x =? 0x5C) with false by lia).
  destruct (Z.ltb_spec c 0x80) as [H|H]; [cbn [map]; destruct (Z.eqb_spec c 0x5C); [reflexivity | now rewrite ltb_t]|].
  replace (c =? 0x5C) with false by lia. rewrite (ltb_f c 0x80) by lia.
  destruct (c <? 0x800); [|destruct (c <? 0x10000)]; cbn [map]; now rewrite !N by lia.
Qed.
Lemma generic_utf8 t : Forall (fun c => scalar c = true) t -> map generic_char (utf8_encode t) = utf8_encode (map generic_char t).
Proof. induction 1 as [|c t S _ IH]; [reflexivity|]. cbn [utf8_encode flat_map map]. rewrite map_app. fold (utf8_encode t). rewrite IH, generic_utf8_char by exact S. reflexivity. Qed.
Lemma utf16_path t : Forall (fun c => scalar c = true) t -> utf16_decode (generic (utf16_encode t)) = Some (map generic_char t).
Proof.
  induction 1 as [|c t S _ IH]; [reflexivity|]. unfold generic in *. cbn [utf16_encode flat_map map]. fold generic_char.
  rewrite map_app. fold (utf16_encode t). change (fun c0 => if c0 =? backslash then slash else c0) with generic_char in *.
  rewrite generic_utf16_char, utf16_decode_char by (trivial; now apply generic_scalar). now rewrite IH.
Qed.
