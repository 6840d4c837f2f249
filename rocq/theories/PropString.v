(** Properties C94 to C97: StringUtils, StringHash, Retrieve and PathUtils. *)
From Verif Require Import Base CInt StringModel StringProofs UnicodeProofs.
Open Scope Z_scope.

(** ** C94 *)
Lemma firstn_length_all (s : list Z) : firstn (length s) s = s.
Proof. apply firstn_all. Qed.

(** Strings and views: nothing is lost, embedded zeros included, and the views designate the same memory. *)
Theorem C94_round_trip :
  (forall s, ToUtf8_string s = s /\ FromUtf8_string s = s) /\
  (forall v, FromUtf8_view (ToUtf8_view v) = v /\ ToUtf8_view (FromUtf8_view v) = v) /\
  (forall m v, view_bytes m (ToUtf8_view v) = view_bytes m v /\ v_data (ToUtf8_view v) = v_data v).
Proof.
  repeat split; intros; unfold ToUtf8_string, FromUtf8_string; try apply firstn_length_all; try (destruct v; reflexivity).
Qed.
Print Assumptions C94_round_trip.

(** The elements: a char is the char8_t modulo 256, whatever the signedness of char. *)
Theorem C94_elements : forall sc b, 0 <= b < 256 ->
  (char_value sc b) mod 256 = char8_value b /\ (b < 128 -> char_value sc b = char8_value b) /\
  (if sc then -128 <= char_value sc b < 128 else 0 <= char_value sc b < 256).
Proof. intros sc b H. unfold char_value, char8_value. destruct sc; cbn [andb]; [|rewrite Z.mod_small by lia; lia]. destruct (Z.leb_spec 128 b); [|rewrite Z.mod_small by lia; lia].
  split; [|lia]. replace (b - 256) with (b + (-1) * 256) by lia. rewrite Z.mod_add by lia. apply Z.mod_small. lia. Qed.
Print Assumptions C94_elements.

(** Pointers: the text up to the first zero; null pointers and arrays without zero are undefined, for both directions. *)
Theorem C94_pointers : forall m p,
  (forall t r, bytes_from m p = t ++ 0 :: r -> ~ In 0 t ->
    exists v, FromUtf8_cstring m (Some p) = Done v /\ ToUtf8_cstring m (Some p) = Done v /\ view_bytes m v = t /\ v_data v = p /\ v_size v = length t) /\
  (~ In 0 (bytes_from m p) -> FromUtf8_cstring m (Some p) = Fault FUB /\ ToUtf8_cstring m (Some p) = Fault FUB) /\
  FromUtf8_cstring m None = Fault FUB /\ ToUtf8_cstring m None = Fault FUB.
Proof.
  intros m p. repeat split; try reflexivity.
  - intros t r E N. exists (mkView p (length t)). unfold ToUtf8_cstring, FromUtf8_cstring, view_of_cstring. rewrite E, traits_length_spec by exact N. cbn.
    repeat split. unfold view_bytes. cbn. rewrite E, firstn_app, Nat.sub_diag, firstn_all. cbn. apply app_nil_r.
  - unfold FromUtf8_cstring, view_of_cstring. now rewrite traits_length_none.
  - unfold ToUtf8_cstring, view_of_cstring. now rewrite traits_length_none.
Qed.
Print Assumptions C94_pointers.

(** C++17 and C++20 give the same text, *)
Theorem C94_standards : forall m p,
  FromUtf8_cstring_17 m p = (v <- FromUtf8_cstring m p ;; Done (view_bytes m v)) /\
  (forall s, FromUtf8_string_17 s = FromUtf8_string s) /\ (forall v, FromUtf8_view_17 v = FromUtf8_view v).
Proof. intros m p. repeat split. - intros s. symmetry. apply firstn_length_all. - intros []; reflexivity. Qed.
Print Assumptions C94_standards.

Lemma upd_same {A} (m : list A) o x : (o < length m)%nat -> nth_error (upd m o x) o = Some x.
Proof. revert o; induction m; intros [|o] O; cbn in *; try lia; trivial. apply IHm. lia. Qed.

(** but with C++20 the result of the pointer overload is a view of the argument, and follows any later change:
    for every non-empty text there is a write to the source that changes the result. *)
Theorem C94_copy_refuted : forall m p v, FromUtf8_cstring m (Some p) = Done v -> (0 < v_size v)%nat ->
  exists m', (forall i, i <> p_obj p -> nth_error m' i = nth_error m i) /\ length (nth (p_obj p) m' []) = length (nth (p_obj p) m []) /\
    view_bytes m' v <> view_bytes m v.
Proof.
  intros m [o k] v E L. unfold FromUtf8_cstring, view_of_cstring in E. apply bind_done in E as (n & E & X). injection X as <-. cbn [v_size] in L.
  apply traits_length_inv in E as (t & r & E & N & ->). unfold bytes_from in E. cbn in E.
  destruct t as [|c t]; [cbn in L; lia|]. cbn [app] in E.
  assert (O : (o < length m)%nat).
  { destruct (Nat.lt_ge_cases o (length m)) as [O|O]; [exact O|]. rewrite (nth_overflow m) in E by exact O. rewrite skipn_nil in E. discriminate. }
  exists (upd m o (firstn k (nth o m []) ++ (c + 1) :: t ++ 0 :: r)). repeat split.
  - intros i Hi. cbn in Hi. clear -Hi. revert o i Hi. induction m; intros [|o] [|i] Hi; cbn; trivial; try congruence. apply IHm. congruence.
  - cbn. rewrite (nth_error_nth (upd m o _) o [] (x := firstn k (nth o m []) ++ (c + 1) :: t ++ 0 :: r)).
    + rewrite <- (firstn_skipn k (nth o m [])) at 2. rewrite E, !app_length. reflexivity.
    + now apply upd_same.
  - unfold view_bytes, bytes_from. cbn [v_data p_obj p_off v_size length].
    rewrite (nth_error_nth (upd m o _) o [] (x := firstn k (nth o m []) ++ (c + 1) :: t ++ 0 :: r)).
    + rewrite E. assert (K : (k <= length (nth o m []))%nat).
      { destruct (Nat.le_gt_cases k (length (nth o m []))) as [K|K]; [exact K|]. rewrite skipn_all2 in E by lia. discriminate. }
      rewrite skipn_app, skipn_firstn_comm, firstn_length_le by exact K. rewrite !Nat.sub_diag. cbn. intros X. injection X. lia.
    + now apply upd_same.
Qed.
Print Assumptions C94_copy_refuted.

Example C94_nonvacuous :
  let m := [[104; 0xC3; 0xA9; 0; 120]] in
  (v <- FromUtf8_cstring m (Some (MkPointer 0 0)) ;; Done (view_bytes m v)) = Done [104; 0xC3; 0xA9] /\
  FromUtf8_cstring m (Some (MkPointer 0 4)) = Fault FUB /\
  map (char_value true) (FromUtf8_string [104; 0xC3; 0xA9]) = [104; -61; -87] /\ FromUtf8_string [1; 0; 2] = [1; 0; 2].
Proof. now vm_compute. Qed.

(** ** C95 *)
Section Lookup.
  Context (hash : list Z -> Z) {V : Type}.
  (** What a user may do with the map; [OAssign grow]: the implementation may rehash before it inserts. *)
  Inductive op := OAssign (grow : option nat) (s : list Z) (v : V) | OErase (k : key) | ORehash (n : nat).
  Definition perform (m : @umap V) (o : op) : outcome (@umap V) :=
    match o with OAssign g s v => umap_assign hash g m s v | OErase k => umap_erase hash m k | ORehash n => require (0 <? n)%nat ;;; Done (rehash hash m n) end.
  Fixpoint history (m : @umap V) (l : list op) : outcome (@umap V) := match l with [] => Done m | o :: l => m <- perform m o ;; history m l end.
  (** What the map should hold for the text [t]: the last operation that names it decides. *)
  Definition after (t : list Z) (o : op) (before : option V) : option V :=
    match o with
    | OAssign _ s v => if list_eq_dec Z.eq_dec t s then Some v else before
    | OErase k => match key_view k with Done s => if list_eq_dec Z.eq_dec t s then None else before | _ => before end
    | ORehash _ => before
    end.
  Definition expected (l : list op) (t : list Z) : option V := fold_left (fun b o => after t o b) l None.

  Lemma put_after t s o (f : list Z -> option V) : put f s o t = if list_eq_dec Z.eq_dec t s then o else f t.
  Proof. unfold put. destruct (list_eq_dec Z.eq_dec t s) as [->|N]; [now rewrite (proj2 (same_spec s s) eq_refl)|]. destruct (same t s) eqn:E; [now apply same_spec in E | reflexivity]. Qed.

  Lemma perform_good m f o m' : good hash m f -> perform m o = Done m' -> good hash m' (fun t => after t o (f t)).
  Proof.
    intros G E. destruct o as [g s v|k|n]; cbn in E |- *.
    - assert (X : good hash m' (put f s (Some v))).
      { destruct g as [n|].
        - destruct n as [|n].
          + (* no bucket: undefined unless the key is there *)
            unfold umap_assign in E. destruct (find_spec hash m (KString s) s (proj1 G) eq_refl) as (r & F & H). rewrite F in E. cbn [bind] in E.
            destruct r as [[b i]|].
            * destruct H as (w & H & _). destruct (set_entry_spec hash m f b i s w v G H) as (q & Q & GQ & _). rewrite Q in E. injection E as <-. exact GQ.
            * cbn zeta in E. apply bind_done in E as ([] & E & _). exfalso. assert (L : length (rehash hash m 0) = 0%nat).
              { unfold rehash. cbn [repeat]. assert (Z : forall l (q : @umap V), length q = 0%nat -> length (fold_left (fun m e => place hash m (fst e) (snd e)) l q) = 0%nat).
                { induction l as [|e l IH]; intros q Q; cbn; [exact Q|]. apply IH. now rewrite place_length. } now apply Z. }
              rewrite L in E. discriminate.
          + destruct (assign_spec hash (Some (S n)) m f s v G (Nat.lt_0_succ n)) as (q & Q & GQ). rewrite Q in E. injection E as <-. exact GQ.
        - destruct m as [|c m0] eqn:M.
          + cbn in E. discriminate.
          + destruct (assign_spec hash None m f s v) as (q & Q & GQ); [now subst | subst; discriminate |]. subst m. rewrite Q in E. injection E as <-. exact GQ. }
      destruct X as (P & R). split; [exact P|]. eapply represents_ext; [|exact R]. intros t. apply put_after.
    - destruct (key_view k) as [s|e] eqn:K.
      + destruct (erase_spec hash m f k s G K) as (q & Q & GQ & _). rewrite Q in E. injection E as <-. destruct GQ as (P & R).
        split; [exact P|]. eapply represents_ext; [|exact R]. intros t. apply put_after.
      + unfold umap_erase, umap_find, StringHash in E. destruct m as [|c m0]; rewrite K in E; cbn in E; discriminate E.
    - apply bind_done in E as ([] & E & X). injection X as <-. destruct n as [|n]; [discriminate E|].
      apply rehash_spec; [lia | exact G].
  Qed.
  Lemma history_good l m f m' : good hash m f -> history m l = Done m' -> good hash m' (fun t => fold_left (fun b o => after t o b) l (f t)).
  Proof.
    revert m f; induction l as [|o l IH]; intros m f G E; cbn in E |- *.
    - injection E as <-. exact G.
    - apply bind_done in E as (q & E1 & E2). exact (IH _ _ (perform_good _ _ _ _ G E1) E2).
  Qed.

  (** Any key type, any hash function, any history: lookup finds the entry of that text exactly. *)
  Theorem C95_lookup : forall n l m k t, history (repeat [] n) l = Done m -> key_view k = Done t ->
    match expected l t with
    | Some v => exists it, umap_find hash m k = Done (Some it) /\ entry m it = Done (t, v)
    | None => umap_find hash m k = Done None
    end.
  Proof.
    intros n l m k t E K. pose proof (history_good l _ _ _ (good_empty hash n) E) as (P & R). fold (expected l) in R.
    destruct (find_spec hash m k t P K) as (r & F & H). destruct r as [it|].
    - destruct H as (v & H & _). assert (X : In (t, v) (concat m)).
      { destruct it as [b i]. destruct (entry_split m b i _ H) as (m1 & c1 & c2 & m2 & -> & _ & _). rewrite concat_app. cbn. rewrite !in_app_iff. right. left. right. now left. }
      apply (proj2 R) in X. fold (expected l t) in X. rewrite X. eauto.
    - destruct (expected l t) as [v|] eqn:X; [|exact F]. apply (proj2 R) in X. now apply H in X.
  Qed.
  (** The three overloads agree on the same text, as std::unordered_map requires of equal keys. *)
  Theorem C95_overloads : forall k1 k2 t, key_view k1 = Done t -> key_view k2 = Done t -> StringHash hash k1 = StringHash hash k2 /\ StringHash hash k1 = Done (hash t).
  Proof. intros k1 k2 t E1 E2. unfold StringHash. rewrite E1, E2. now split. Qed.
  (** Pointers: a text with an embedded zero cannot be looked up through a pointer, which sees the part before the zero. *)
  Theorem C95_embedded_zero : forall t r, ~ In 0 t -> key_view (KPointer (t ++ 0 :: r)) = Done t.
  Proof. intros t r N. cbn. rewrite traits_length_spec by exact N. cbn. now rewrite firstn_app, Nat.sub_diag, firstn_all, app_nil_r. Qed.

  (** ** C96 *)
  (** Retrieve: the value of the key if there is one, an assertion otherwise (and undefined behaviour without assertions); *)
  Theorem C96_retrieve : forall n l m k t asserts, history (repeat [] n) l = Done m -> key_view k = Done t ->
    match expected l t with
    | Some v => exists it, Retrieve hash asserts m k = Done it /\ entry m it = Done (t, v)
    | None => Retrieve hash asserts m k = Fault (if asserts then FAssert else FUB)
    end.
  Proof.
    intros n l m k t asserts E K. pose proof (C95_lookup n l m k t E K) as H. unfold Retrieve. destruct (expected l t) as [v|].
    - destruct H as (it & -> & H). exists it. now destruct asserts.
    - rewrite H. now destruct asserts.
  Qed.
  (** assigning through the reference changes the value of that key and of no other one. *)
  Theorem C96_assign : forall n l m k t asserts it w, history (repeat [] n) l = Done m -> key_view k = Done t -> Retrieve hash asserts m k = Done it ->
    exists m', set_entry m it w = Done m' /\
      forall k' t', key_view k' = Done t' ->
        match (if list_eq_dec Z.eq_dec t' t then Some w else expected l t') with
        | Some v => exists it', Retrieve hash asserts m' k' = Done it' /\ entry m' it' = Done (t', v)
        | None => Retrieve hash asserts m' k' = Fault (if asserts then FAssert else FUB)
        end.
  Proof.
    intros n l m k t asserts [b i] w E K H. pose proof (C96_retrieve n l m k t asserts E K) as R.
    assert (X : exists v, entry m (b, i) = Done (t, v)).
    { destruct (expected l t) as [v|]; [destruct R as (it & R & X); rewrite H in R; injection R as <-; eauto|]. rewrite H in R. discriminate. }
    destruct X as (v & X). pose proof (history_good l _ _ _ (good_empty hash n) E) as G. fold (expected l) in G.
    destruct (set_entry_spec hash m _ b i t v w G X) as (m' & S & G' & _). exists m'. split; [exact S|]. intros k' t' K'.
    destruct G' as (P & RR). destruct (find_spec hash m' k' t' P K') as (r & F & HH).
    pose proof (put_after t' t (Some w) (expected l)) as PA. unfold Retrieve. rewrite F. cbn [bind].
    rewrite <- PA. destruct r as [it|].
    - destruct HH as (u & HH & _). assert (Y : In (t', u) (concat m')).
      { destruct it as [b' i']. destruct (entry_split m' b' i' _ HH) as (m1 & c1 & c2 & m2 & -> & _ & _). rewrite concat_app. cbn. rewrite !in_app_iff. right. left. right. now left. }
      apply (proj2 RR) in Y. change (put (expected l) t (Some w) t' = Some u) in Y. rewrite Y. exists it. now destruct asserts.
    - destruct (put (expected l) t (Some w) t') as [u|] eqn:Y; [|now destruct asserts]. apply (proj2 RR) in Y. now apply HH in Y.
  Qed.
End Lookup.
Print Assumptions C95_lookup.
Print Assumptions C95_overloads.
Print Assumptions C95_embedded_zero.
Print Assumptions C96_retrieve.
Print Assumptions C96_assign.

(** Non-vacuity: a map with colliding keys; the history of the unit test. *)
Definition sample_hash (l : list Z) : Z := nth 0 l 0.
Definition sample_history := [OAssign (Some 2%nat) [116; 49] 1; OAssign None [116; 50] 2; OAssign (Some 5%nat) [117] 3; OErase (KView [116; 50]); OAssign None [116; 49] 4; ORehash 3].
Example C95_nonvacuous :
  match history sample_hash (repeat [] 0) sample_history with
  | Done m => is_done (Retrieve sample_hash true m (KPointer [116; 49; 0; 7])) = true /\ (it <- Retrieve sample_hash true m (KPointer [116; 49; 0; 7]) ;; entry m it) = Done ([116; 49], 4) /\
      Retrieve sample_hash true m (KView [116; 50]) = Fault FAssert /\ (it <- Retrieve sample_hash false m (KString [117]) ;; entry m it) = Done ([117], 3)
  | Fault _ => False
  end /\ expected sample_history [116; 49] = Some 4 /\ expected sample_history [116; 50] = None.
Proof. now vm_compute. Qed.

(** ** C97 *)
(** POSIX: every byte string comes back, valid UTF-8 or not. *)
Theorem C97_posix : forall s, posix_PathToString (posix_Utf8Path s) = s.
Proof. intros s. unfold posix_PathToString, posix_Utf8Path, FromUtf8_string, ToUtf8_string. now rewrite !firstn_length_all. Qed.
Print Assumptions C97_posix.
(** Windows: every valid text comes back with '\' replaced by '/', and the others throw. *)
Theorem C97_windows : forall s, bytes s ->
  match utf8_decode s with
  | Some _ => exists p, windows_Utf8Path s = Done p /\ windows_PathToString p = Done (map (fun b => if b =? 0x5C then 0x2F else b) s)
  | None => windows_Utf8Path s = Fault FThrow
  end.
Proof.
  intros s B. destruct (utf8_decode s) as [t|] eqn:D.
  - destruct (utf8_decode_sound s B t D) as (F & E). exists (utf16_encode t). split.
    + unfold windows_Utf8Path, ToUtf8_string. now rewrite firstn_length_all, D.
    + unfold windows_PathToString. rewrite utf16_path by exact F. cbn [converted bind]. unfold FromUtf8_string. rewrite firstn_length_all.
      rewrite <- E. fold generic_char. change (fun b => if b =? 92 then 47 else b) with generic_char. now rewrite generic_utf8.
  - unfold windows_Utf8Path, ToUtf8_string. now rewrite firstn_length_all, D.
Qed.
Print Assumptions C97_windows.
(** All texts: the encoding of any sequence of Unicode scalar values is valid, so the theorem is about all of them. *)
Theorem C97_every_text : forall t, Forall (fun c => 0 <= c < 0xD800 \/ 0xE000 <= c < 0x110000) t ->
  exists p, windows_Utf8Path (utf8_encode t) = Done p /\ (~ In 0x5C t -> windows_PathToString p = Done (utf8_encode t)).
Proof.
  intros t H. assert (F : Forall (fun c => scalar c = true) t) by (eapply Forall_impl; [|exact H]; intros c R; unfold scalar; cbn in R; lia).
  exists (utf16_encode t). split.
  - unfold windows_Utf8Path, ToUtf8_string. now rewrite firstn_length_all, utf8_decode_encode.
  - intros N. unfold windows_PathToString. rewrite utf16_path by exact F. cbn [converted bind]. unfold FromUtf8_string. rewrite firstn_length_all. do 2 f_equal.
    rewrite <- (map_id t) at 2. apply map_ext_in. intros c I. unfold generic_char, backslash. destruct (Z.eqb_spec c 0x5C) as [->|]; tauto.
Qed.
Print Assumptions C97_every_text.
Example C97_nonvacuous :
  let s := [0x68; 0xC3; 0xA9; 0x5C; 0xE2; 0x82; 0xAC; 0xF0; 0x9F; 0x98; 0x80] in
  utf8_decode s = Some [0x68; 0xE9; 0x5C; 0x20AC; 0x1F600] /\ windows_Utf8Path s = Done [0x68; 0xE9; 0x5C; 0x20AC; 0xD83D; 0xDE00] /\
  (p <- windows_Utf8Path s ;; windows_PathToString p) = Done [0x68; 0xC3; 0xA9; 0x2F; 0xE2; 0x82; 0xAC; 0xF0; 0x9F; 0x98; 0x80] /\
  windows_Utf8Path [0xC0; 0x80] = Fault FThrow /\ windows_Utf8Path [0xED; 0xA0; 0x80] = Fault FThrow.
Proof. now vm_compute. Qed.
