(** Properties C53-C55, C77: Hash. *)
From Verif Require Import HashSpec HashModel HashProofs.
Open Scope N_scope.

Definition nonzero (l : list N) : Prop := Forall (fun b => b <> 0) l.
Lemma bytes_in l b : bytes l -> In b l -> b < 256.
Proof. intros H. exact (proj1 (Forall_forall _ _) H b). Qed.
Lemma bytes_firstn n l : bytes l -> bytes (firstn n l).
Proof. intros H. apply Forall_forall. intros b K. apply (bytes_in l b H). rewrite <- (firstn_skipn n l). apply in_or_app. now left. Qed.

(** *** C53 *)
Lemma crc_result l r : bytes l -> r = fold_left crc_g l 0xFFFFFFFF -> unot 32 r = crc32 l.
Proof. intros H ->. unfold crc32, unot. rewrite crc_fold by exact H. reflexivity. Qed.
Lemma char_step sc r b : b < 256 -> crc_step r (char_to sc 32 b) = Done (crc_g r b).
Proof. intros H. apply crc_step_T8; [exact H | apply char_low; [discriminate | exact H]]. Qed.
Lemma byte_step r b : b < 256 -> crc_step r b = Done (crc_g r b).
Proof. intros H. apply crc_step_T8; [exact H|]. change 255 with (N.ones 8). rewrite N.land_ones. now apply N.mod_small. Qed.

Theorem C53_CRC32_bytes m size : bytes m -> (size <= length m)%nat -> CRC32_bytes m size = Done (crc32 (firstn size m)).
Proof. intros H HL. unfold CRC32_bytes. rewrite (over_array_fold _ crc_g) by (auto; intros s b HI; apply byte_step; exact (bytes_in m b H HI)). cbn [bind]. f_equal. apply crc_result; [now apply bytes_firstn | reflexivity]. Qed.
Theorem C53_CRC32_view sc text : bytes text -> CRC32_view sc text = Done (crc32 text).
Proof. intros H. unfold CRC32_view. rewrite (over_array_fold _ crc_g) by (auto; intros s b HI; apply char_step; exact (bytes_in text b H HI)). cbn [bind]. f_equal. apply crc_result; [exact H | now rewrite firstn_all]. Qed.
Theorem C53_CRC32_cstr sc text rest : bytes text -> nonzero text -> CRC32_cstr sc (text ++ 0 :: rest) = Done (crc32 text).
Proof. intros H NZ. unfold CRC32_cstr. rewrite (over_cstring_fold _ crc_g) by (auto; intros s b HI; apply char_step; exact (bytes_in text b H HI)). cbn [bind]. f_equal. now apply crc_result. Qed.
Theorem C53_table : GenerateCRC32Table 0xEDB88320 = Done s_crc32Table.
Proof. vm_compute. reflexivity. Qed.
(** No terminator: the loop leaves the array. *)
Theorem C53_unterminated sc m : bytes m -> nonzero m -> CRC32_cstr sc m = Fault FUB.
Proof.
  intros H NZ. unfold CRC32_cstr. replace (over_cstring _ m _) with (@Fault N FUB); [reflexivity|]. symmetry. generalize 0xFFFFFFFF. induction m as [|b m IH]; intros r; cbn [over_cstring]; [reflexivity|]. inversion H; inversion NZ; subst. replace (b =? 0) with false by (symmetry; now apply N.eqb_neq). rewrite char_step by assumption. cbn [bind]. now apply IH.
Qed.
Print Assumptions C53_CRC32_bytes.
Print Assumptions C53_CRC32_view.
Print Assumptions C53_CRC32_cstr.
Print Assumptions C53_unterminated.
(** "123456789", and a text with a byte above 0x7F *)
Example C53_example : CRC32_cstr true [49; 50; 51; 52; 53; 54; 55; 56; 57; 0] = Done 0xCBF43926 /\ CRC32_view true [49; 50; 51; 52; 53; 54; 55; 56; 57] = Done 0xCBF43926 /\ crc32 [49; 50; 51; 52; 53; 54; 55; 56; 57] = 0xCBF43926 /\
  CRC32_view true [0xC3; 0xA9] = CRC32_bytes [0xC3; 0xA9] 2 /\ CRC32_bytes [] 0 = Done 0.
Proof. repeat split; vm_compute; reflexivity. Qed.

(** *** C54 *)
(** The overload for bytes computes FNV-1a; the overloads for text do for the texts whose chars are not negative. *)
Definition plain_text (sc : bool) (l : list N) : Prop := sc = false \/ Forall (fun b => b < 128) l.
Lemma plain_char sc w l b : plain_text sc l -> In b l -> char_to sc w b = b.
Proof. intros [H|H] HI; apply char_plain; [now left|]. right. exact (proj1 (Forall_forall _ _) H b HI). Qed.
Theorem C54_FNV1a32_bytes m size : (size <= length m)%nat -> FNV1a32_bytes m size = Done (fnv1a_32 (firstn size m)).
Proof. intros HL. unfold FNV1a32_bytes. rewrite (over_array_fold _ (fnv_g FNV1Prime_32 32)) by auto. reflexivity. Qed.
Theorem C54_FNV1a64_bytes m size : (size <= length m)%nat -> FNV1a64_bytes m size = Done (fnv1a_64 (firstn size m)).
Proof. intros HL. unfold FNV1a64_bytes. rewrite (over_array_fold _ (fnv_g FNV1Prime_64 64)) by auto. reflexivity. Qed.
Theorem C54_FNV1a32_text_partial sc text rest : plain_text sc text -> FNV1a32_view sc text = Done (fnv1a_32 text) /\ (nonzero text -> FNV1a32_cstr sc (text ++ 0 :: rest) = Done (fnv1a_32 text)).
Proof.
  intros H. split.
  - unfold FNV1a32_view. rewrite (over_array_fold _ (fnv_g FNV1Prime_32 32)) by (auto; intros s b HI; now rewrite (plain_char sc 32 text b H HI)). now rewrite firstn_all.
  - intros NZ. unfold FNV1a32_cstr. rewrite (over_cstring_fold _ (fnv_g FNV1Prime_32 32)) by (auto; intros s b HI; now rewrite (plain_char sc 32 text b H HI)). reflexivity.
Qed.
Theorem C54_FNV1a64_text_partial sc text rest : plain_text sc text -> FNV1a64_view sc text = Done (fnv1a_64 text) /\ (nonzero text -> FNV1a64_cstr sc (text ++ 0 :: rest) = Done (fnv1a_64 text)).
Proof.
  intros H. split.
  - unfold FNV1a64_view. rewrite (over_array_fold _ (fnv_g FNV1Prime_64 64)) by (auto; intros s b HI; now rewrite (plain_char sc 64 text b H HI)). now rewrite firstn_all.
  - intros NZ. unfold FNV1a64_cstr. rewrite (over_cstring_fold _ (fnv_g FNV1Prime_64 64)) by (auto; intros s b HI; now rewrite (plain_char sc 64 text b H HI)). reflexivity.
Qed.
(** Where char is signed, a text ending with its only byte above 0x7F always gets another hash from the overloads for text. *)
Lemma negative_char w b : 8 < w -> 128 <= b < 256 -> char_to true w b < 2 ^ w /\ char_to true w b <> b.
Proof.
  intros HW HB. unfold char_to. replace (128 <=? b) with true by (symmetry; apply N.leb_le; lia). cbn [andb]. unfold wrap. split; [apply mod_lt|]. assert (2 ^ 9 <= 2 ^ w) by (apply N.pow_le_mono_r; [discriminate | lia]). change (2 ^ 9) with 512 in H. rewrite N.mod_small by lia. lia.
Qed.
Theorem C54_FNV1a32_negative_char_refuted text b : bytes text -> plain_text true text -> 128 <= b < 256 -> exists h, FNV1a32_view true (text ++ [b]) = Done h /\ FNV1a32_bytes (text ++ [b]) (length (text ++ [b])) = Done (fnv1a_32 (text ++ [b])) /\ h <> fnv1a_32 (text ++ [b]).
Proof.
  intros H HP HB. destruct (negative_char 32 b ltac:(reflexivity) HB) as (CL & CD). exists (fnv_g FNV1Prime_32 32 (fnv1a_32 text) (char_to true 32 b)). split; [|split; [rewrite C54_FNV1a32_bytes by lia; now rewrite firstn_all|]].
  - unfold FNV1a32_view. rewrite (over_array_fold _ (fun h c => fnv_g FNV1Prime_32 32 h (char_to true 32 c))) by auto. rewrite firstn_all, fold_left_app. cbn [fold_left]. f_equal. f_equal. unfold fnv1a_32, fnv. change FNV1OffsetBasis_32 with 2166136261. generalize 2166136261. destruct HP as [HP|HP]; [discriminate|]. clear H. induction HP as [|c l HC HP IH]; intros h; [reflexivity|]. cbn [fold_left]. rewrite char_plain by (now right). apply IH.
  - intros E. unfold fnv1a_32 at 2, fnv in E. rewrite fold_left_app in E. cbn [fold_left] in E. fold (fnv 2166136261 (2 ^ 24 + 2 ^ 8 + 147) 32 text) in E. fold (fnv1a_32 text) in E. change (2 ^ 24 + 2 ^ 8 + 147) with FNV1Prime_32 in E. fold (fnv_g FNV1Prime_32 32 (fnv1a_32 text) b) in E.
    assert (HL : fnv1a_32 text < 2 ^ 32) by (apply (fold_lt (fnv_g FNV1Prime_32 32) 32 (fnv_g_lt FNV1Prime_32 32)); [exact H | reflexivity]). apply (fnv_any_inj FNV1Prime_32 899433627 32) in E; [|reflexivity | exact HL | exact CL | exact HL | apply byte_lt; [discriminate | lia]]. apply CD. exact (lxor_inj_l _ _ _ E).
Qed.
Theorem C54_FNV1a64_negative_char_refuted text b : bytes text -> plain_text true text -> 128 <= b < 256 -> exists h, FNV1a64_view true (text ++ [b]) = Done h /\ FNV1a64_bytes (text ++ [b]) (length (text ++ [b])) = Done (fnv1a_64 (text ++ [b])) /\ h <> fnv1a_64 (text ++ [b]).
Proof.
  intros H HP HB. destruct (negative_char 64 b ltac:(reflexivity) HB) as (CL & CD). exists (fnv_g FNV1Prime_64 64 (fnv1a_64 text) (char_to true 64 b)). split; [|split; [rewrite C54_FNV1a64_bytes by lia; now rewrite firstn_all|]].
  - unfold FNV1a64_view. rewrite (over_array_fold _ (fun h c => fnv_g FNV1Prime_64 64 h (char_to true 64 c))) by auto. rewrite firstn_all, fold_left_app. cbn [fold_left]. f_equal. f_equal. unfold fnv1a_64, fnv. change FNV1OffsetBasis_64 with 14695981039346656037. generalize 14695981039346656037. destruct HP as [HP|HP]; [discriminate|]. clear H. induction HP as [|c l HC HP IH]; intros h; [reflexivity|]. cbn [fold_left]. rewrite char_plain by (now right). apply IH.
  - intros E. unfold fnv1a_64 at 2, fnv in E. rewrite fold_left_app in E. cbn [fold_left] in E. fold (fnv 14695981039346656037 (2 ^ 40 + 2 ^ 8 + 179) 64 text) in E. fold (fnv1a_64 text) in E. change (2 ^ 40 + 2 ^ 8 + 179) with FNV1Prime_64 in E. fold (fnv_g FNV1Prime_64 64 (fnv1a_64 text) b) in E.
    assert (HL : fnv1a_64 text < 2 ^ 64) by (apply (fold_lt (fnv_g FNV1Prime_64 64) 64 (fnv_g_lt FNV1Prime_64 64)); [exact H | reflexivity]). apply (fnv_any_inj FNV1Prime_64 14886173955864302971 64) in E; [|reflexivity | exact HL | exact CL | exact HL | apply byte_lt; [discriminate | lia]]. apply CD. exact (lxor_inj_l _ _ _ E).
Qed.
Print Assumptions C54_FNV1a32_bytes.
Print Assumptions C54_FNV1a64_bytes.
Print Assumptions C54_FNV1a32_text_partial.
Print Assumptions C54_FNV1a64_text_partial.
Print Assumptions C54_FNV1a32_negative_char_refuted.
Print Assumptions C54_FNV1a64_negative_char_refuted.
(** The published values for "foobar"; the letter e with acute accent in UTF-8 *)
Example C54_example : FNV1a32_cstr true [102; 111; 111; 98; 97; 114; 0] = Done 0xbf9cf968 /\ FNV1a64_view true [102; 111; 111; 98; 97; 114] = Done 0x85944171f73967e8 /\ FNV1a32_view true [0xC3; 0xA9] <> FNV1a32_bytes [0xC3; 0xA9] 2 /\ FNV1a32_view false [0xC3; 0xA9] = FNV1a32_bytes [0xC3; 0xA9] 2.
Proof. repeat split; vm_compute; try reflexivity; discriminate. Qed.

(** *** C55 *)
Theorem C55_HashCombine_lossless seed h h' : seed < 2 ^ 64 -> h < 2 ^ 64 -> h' < 2 ^ 64 -> h <> h' -> HashCombine seed h <> HashCombine seed h'.
Proof. intros HS H H' D E. exact (D (combine_inj seed h h' HS H H' E)). Qed.
(** With a lossless std::hash<std::size_t>, a change of the last of several values changes the combination. *)
Theorem C55_HashCombine_all_lossless hasher first rest h h' : (forall x, hasher x < 2 ^ 64) -> (forall x y, x < 2 ^ 64 -> y < 2 ^ 64 -> hasher x = hasher y -> x = y) -> first < 2 ^ 64 -> Forall (fun x => x < 2 ^ 64) rest -> h < 2 ^ 64 -> h' < 2 ^ 64 -> h <> h' ->
  HashCombine_all hasher first (rest ++ [h]) <> HashCombine_all hasher first (rest ++ [h']).
Proof.
  intros HL HI HF HR H H' D. revert first HF. induction HR as [|x rest HX HR IH]; intros first HF; cbn [app HashCombine_all]; intros E; apply combine_inj in E; auto; apply HI in E; auto.
  - exact (IH x HX E).
  - destruct rest; apply combine_lt.
  - destruct rest; apply combine_lt.
Qed.
Print Assumptions C55_HashCombine_lossless.
Print Assumptions C55_HashCombine_all_lossless.
Example C55_example : HashCombine 1 2 <> HashCombine 1 3 /\ HashCombine_all (fun x => x) 1 [2; 3] <> HashCombine_all (fun x => x) 1 [2; 4] /\ HashCombine_all (fun x => x) 7 [] = 7 /\ HashCombine 0 0 = 0.
Proof. repeat split; vm_compute; try reflexivity; discriminate. Qed.

(** *** C77 *)
Definition differ_in_one_byte (x y : list N) : Prop := exists l b b' r, x = l ++ b :: r /\ y = l ++ b' :: r /\ b <> b'.
Lemma split_bytes l b r : bytes (l ++ b :: r) -> bytes l /\ b < 256 /\ bytes r.
Proof. intros H. apply Forall_app in H. destruct H as (H1 & H2). inversion H2. auto. Qed.
Theorem C77_CRC32_detects_a_changed_byte sc x y : bytes x -> bytes y -> differ_in_one_byte x y -> CRC32_view sc x <> CRC32_view sc y /\ CRC32_bytes x (length x) <> CRC32_bytes y (length y).
Proof.
  intros HX HY (l & b & b' & r & -> & -> & D). destruct (split_bytes _ _ _ HX) as (HL & HB & HR). destruct (split_bytes _ _ _ HY) as (_ & HB' & _).
  assert (K : crc32 (l ++ b :: r) <> crc32 (l ++ b' :: r)).
  { unfold crc32. rewrite !crc_fold by assumption. fold crc_g. intros E. assert (L1 : fold_left crc_g (l ++ b :: r) (2 ^ 32 - 1) < 2 ^ 32) by (apply (fold_lt crc_g 32 crc_g_lt); [exact HX | reflexivity]). assert (L2 : fold_left crc_g (l ++ b' :: r) (2 ^ 32 - 1) < 2 ^ 32) by (apply (fold_lt crc_g 32 crc_g_lt); [exact HY | reflexivity]).
    apply (change_byte crc_g 32 crc_g_lt crc_g_inj crc_g_byte l b b' r (2 ^ 32 - 1) HL HR HB HB' eq_refl D). unfold crc_g in *. lia. }
  rewrite !C53_CRC32_view, !C53_CRC32_bytes by (assumption || lia). rewrite !firstn_all. split; congruence.
Qed.
Theorem C77_FNV1a_changes_with_a_byte x y : bytes x -> bytes y -> differ_in_one_byte x y -> FNV1a32_bytes x (length x) <> FNV1a32_bytes y (length y) /\ FNV1a64_bytes x (length x) <> FNV1a64_bytes y (length y).
Proof.
  intros HX HY (l & b & b' & r & -> & -> & D). destruct (split_bytes _ _ _ HX) as (HL & HB & HR). destruct (split_bytes _ _ _ HY) as (_ & HB' & _).
  rewrite !C54_FNV1a32_bytes, !C54_FNV1a64_bytes by lia. rewrite !firstn_all. split; intros E; injection E as E.
  - apply (change_byte (fnv_g FNV1Prime_32 32) 32 (fnv_g_lt FNV1Prime_32 32) (fnv_g_inj FNV1Prime_32 899433627 32 ltac:(discriminate) eq_refl) (fnv_g_byte FNV1Prime_32 899433627 32 ltac:(discriminate) eq_refl) l b b' r FNV1OffsetBasis_32 HL HR HB HB' eq_refl D). exact E.
  - apply (change_byte (fnv_g FNV1Prime_64 64) 64 (fnv_g_lt FNV1Prime_64 64) (fnv_g_inj FNV1Prime_64 14886173955864302971 64 ltac:(discriminate) eq_refl) (fnv_g_byte FNV1Prime_64 14886173955864302971 64 ltac:(discriminate) eq_refl) l b b' r FNV1OffsetBasis_64 HL HR HB HB' eq_refl D). exact E.
Qed.
Print Assumptions C77_CRC32_detects_a_changed_byte.
Print Assumptions C77_FNV1a_changes_with_a_byte.
Example C77_example : differ_in_one_byte [1; 2; 3] [1; 7; 3] /\ CRC32_view true [1; 2; 3] <> CRC32_view true [1; 7; 3].
Proof. split; [exists [1], 2, 7, [3]; repeat split; discriminate | vm_compute; discriminate]. Qed.
