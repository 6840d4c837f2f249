(** Property C110: the preprocessor recognises compiler, language, platform, architecture and byte order. *)
From Verif Require Import PlatformModel.
Open Scope string_scope.
Open Scope Z_scope.

(** ** Specification *)
Definition earlier (a b : Z * Z) : Prop := fst a < fst b \/ fst a = fst b /\ snd a <= snd b.
(** In a condition a name that is no macro is 0. *)
Definition number (m : env) (x : string) : Z := match m x with Some v => v | None => 0 end.
Definition clang_version (m : env) : Z * Z := (number m "__clang_major__", number m "__clang_minor__").
Definition gcc_version (m : env) : Z * Z := (number m "__GNUC__", number m "__GNUC_MINOR__").
Definition is_gcc (m : env) : Prop := m "__clang__" = None /\ m "__GNUC__" <> None.

(** ** C110 *)
(** Exactly one family of version checks is alive. *)
Theorem C110_one_compiler : forall m v, 
  (CheckClangVer m v = true -> CheckGccVer m v = false /\ CheckIccVer m v = false /\ CheckMsvcVer m v = false) /\
  (CheckGccVer m v = true -> CheckClangVer m v = false /\ CheckIccVer m v = false /\ CheckMsvcVer m v = false) /\
  (CheckMsvcVer m v = true -> CheckClangVer m v = false /\ CheckGccVer m v = false /\ CheckIccVer m v = false) /\
  (CheckIccVer m v = true -> CheckClangVer m v = false /\ CheckGccVer m v = false /\ CheckMsvcVer m v = false).
Proof. intros m v. unfold CheckClangVer, CheckGccVer, CheckIccVer, CheckMsvcVer. destruct (compiler_of m); repeat split; intros; congruence. Qed.

(** NAZARA_CHECK_..._VER(100 * a + b) compares versions component by component, as long as minor versions stay below 100. *)
Theorem C110_versions_partial : forall m a b, 0 <= b < 100 ->
  (compiler_of m = Clang -> 0 <= snd (clang_version m) < 100 -> (CheckClangVer m (100 * a + b) = true <-> earlier (a, b) (clang_version m))) /\
  (compiler_of m = Gcc -> 0 <= snd (gcc_version m) < 100 -> (CheckGccVer m (100 * a + b) = true <-> earlier (a, b) (gcc_version m))).
Proof.
  intros m a b Hb. unfold CheckClangVer, CheckGccVer, clang_version, gcc_version, earlier, value, number. cbn [fst snd]. split; intros -> Hm; rewrite Z.leb_le; lia.
Qed.
Theorem C110_versions_refuted : forall m a, compiler_of m = Gcc -> gcc_version m = (a, 100) -> CheckGccVer m (100 * (a + 1) + 0) = true /\ ~ earlier (a + 1, 0) (gcc_version m).
Proof.
  intros m a C V. pose proof V as W. unfold CheckGccVer, gcc_version, earlier, value, number in *. rewrite C. injection W as W1 W2. rewrite W1, W2, Z.leb_le. cbn [fst snd]. lia.
Qed.

(** gcc and clang are told apart although clang defines __GNUC__ too; icc on Linux, which does as well, is taken for gcc. *)
Theorem C110_clang : forall m, m "__clang__" <> None <-> compiler_of m = Clang.
Proof.
  intros m. unfold compiler_of, defined. destruct (m "__clang__"); [split; [reflexivity|discriminate]|]. split; [congruence|].
  destruct (m "__GNUC__"), (m "__MINGW32__"), (m "__INTEL_COMPILER"), (m "__ICL"), (m "_MSC_VER"); discriminate.
Qed.
Theorem C110_icc_refuted : forall m, m "__clang__" = None -> m "__INTEL_COMPILER" <> None -> m "__GNUC__" <> None -> compiler_of m = Gcc /\ forall v, CheckIccVer m v = false.
Proof.
  intros m C I G. assert (E : compiler_of m = Gcc) by (unfold compiler_of, defined; rewrite C; destruct (m "__GNUC__"); [reflexivity|contradiction]).
  split; [exact E|]. intros v. unfold CheckIccVer. now rewrite E.
Qed.

(** The others are found by their own macros, after these. *)
Theorem C110_compiler : forall m, let none l := forall x, In x l -> m x = None in
  (none ["__clang__"] -> m "__GNUC__" <> None \/ m "__MINGW32__" <> None -> compiler_of m = Gcc) /\
  (none ["__clang__"; "__GNUC__"; "__MINGW32__"] -> m "__INTEL_COMPILER" <> None \/ m "__ICL" <> None -> compiler_of m = Icc) /\
  (none ["__clang__"; "__GNUC__"; "__MINGW32__"; "__INTEL_COMPILER"; "__ICL"] -> m "_MSC_VER" <> None -> compiler_of m = Msvc) /\
  (none ["__clang__"; "__GNUC__"; "__MINGW32__"; "__INTEL_COMPILER"; "__ICL"; "_MSC_VER"] -> compiler_of m = UnknownCompiler).
Proof.
  intros m none. unfold compiler_of, defined. repeat split; intros;
    repeat match goal with
    | N : none ?l |- context [m ?x] => rewrite (N x) by (cbn; tauto)
    | D : _ \/ _ |- _ => destruct D as [D|D]
    | D : m ?x <> None |- _ => destruct (m x); [clear D | contradiction]
    end; try reflexivity; repeat match goal with |- context [m ?x] => destruct (m x) end; reflexivity.
Qed.
Theorem C110_other_versions : forall m v,
  (compiler_of m = Icc -> (CheckIccVer m v = true <-> v <= number m "__INTEL_COMPILER")) /\ (compiler_of m = Msvc -> (CheckMsvcVer m v = true <-> v <= number m "_MSC_VER")) /\
  CppVer m = number m (match compiler_of m with Msvc => "_MSVC_LANG" | _ => "__cplusplus" end) /\ (CheckCppVer m v = true <-> v <= CppVer m).
Proof.
  intros m v. unfold CheckIccVer, CheckMsvcVer, CppVer, CheckCppVer, value, number. split; [|split; [|split]].
  - intros ->. apply Z.leb_le.
  - intros ->. apply Z.leb_le.
  - destruct (compiler_of m); reflexivity.
  - apply Z.leb_le.
Qed.

(** Newer languages include the checks of the older ones; before C++17 nothing compiles. *)
Theorem C110_language : forall m v, language m = Some v -> v = CppVer m /\ CPP17 <= v /\ (CheckCppVer m CPP23 = true -> CheckCppVer m CPP20 = true) /\ (forall a b, a <= b -> CheckCppVer m b = true -> CheckCppVer m a = true).
Proof.
  intros m v. unfold language. destruct (CheckCppVer m CPP17) eqn:E; [|discriminate]. intros [= <-]. unfold CheckCppVer in *. rewrite Z.leb_le in E.
  repeat split; [exact E|rewrite !Z.leb_le; unfold CPP20, CPP23; lia|]. intros a b H. rewrite !Z.leb_le. lia.
Qed.

(** Exactly one operating system; desktop and mobile exclude each other; POSIX everywhere but on Windows. *)
Definition system (p : platform) : bool := match p with Windows | Android | Linux | FreeBsd | Ios | MacOs | Web | UnknownPlatform => true | _ => false end.
Theorem C110_platform : forall m h l, platforms m h = Some l ->
  length (filter system l) = 1%nat /\ ~ (In Desktop l /\ In Mobile l) /\ (In Posix l <-> ~ In Windows l /\ ~ In UnknownPlatform l).
Proof.
  intros m h l. unfold platforms. destruct (defined m "_WIN32"), (defined m "__ANDROID__"), h, (defined m "__linux__"), (defined m "__FreeBSD__"), (defined m "__APPLE__"), (negb (value m "TARGET_OS_IPHONE" =? 0)), (defined m "__EMSCRIPTEN__");
    intros E; try discriminate E; injection E as <-; (split; [reflexivity|]); cbn; intuition discriminate.
Qed.

(** The system is the one whose macro is defined: Android also defines __linux__, and everything else comes after Windows. *)
Theorem C110_platform_found : forall m h, let none l := forall x, In x l -> m x = None in
  (m "_WIN32" <> None -> platforms m h = Some [Desktop; Windows]) /\
  (none ["_WIN32"] -> m "__ANDROID__" <> None -> platforms m true = Some [Mobile; Android; Posix] /\ platforms m false = None) /\
  (none ["_WIN32"; "__ANDROID__"] -> m "__linux__" <> None -> platforms m h = Some [Desktop; Linux; Posix]) /\
  (none ["_WIN32"; "__ANDROID__"; "__linux__"; "__FreeBSD__"] -> m "__APPLE__" <> None -> platforms m h = Some (if number m "TARGET_OS_IPHONE" =? 0 then [Desktop; MacOs; Bsd; Posix] else [Mobile; Ios; Bsd; Posix])) /\
  (none ["_WIN32"; "__ANDROID__"; "__linux__"; "__FreeBSD__"; "__APPLE__"] -> m "__EMSCRIPTEN__" <> None -> platforms m h = Some [Web; Posix]) /\
  (none ["_WIN32"; "__ANDROID__"; "__linux__"; "__FreeBSD__"; "__APPLE__"; "__EMSCRIPTEN__"] -> platforms m h = Some [UnknownPlatform]).
Proof.
  intros m h none. unfold platforms, defined, value. repeat split; intros;
    repeat match goal with
    | N : none ?l |- context [m ?x] => rewrite (N x) by (cbn; tauto)
    | D : m ?x <> None |- _ => destruct (m x); [clear D | contradiction]
    end; try reflexivity. unfold number. now destruct (_ =? 0).
Qed.

(** One architecture, whose macros are defined and no other's; else an error. *)
Theorem C110_architecture : forall m l, m "NAZARA_NO_ARCH_DETECTION" = None -> arch_of m = Some l ->
  exists a, l = [a] /\ (exists x, In x (arch_macros a) /\ m x <> None) /\ forall b x, In x (arch_macros b) -> m x <> None -> b = a.
Proof.
  intros m l N. unfold arch_of, defined at 1. rewrite N. destruct (filter _ archs) as [|a [|b r]] eqn:F; cbn; [discriminate| |discriminate]. intros [= <-].
  exists a. split; [reflexivity|]. assert (A : forall b, any_defined m (arch_macros b) = true <-> b = a).
  { intros b. split; intros H.
    - assert (I : In b (filter (fun a => any_defined m (arch_macros a)) archs)) by (apply filter_In; split; [destruct b; cbn; tauto|exact H]). rewrite F in I. destruct I as [I|[]]. congruence.
    - subst b. assert (I : In a (filter (fun a => any_defined m (arch_macros a)) archs)) by (rewrite F; now left). now apply filter_In in I. }
  split.
  - pose proof (proj2 (A a) eq_refl) as H. apply existsb_exists in H as (x & I & D). exists x. split; [exact I|]. unfold defined in D. destruct (m x); congruence.
  - intros b x I D. apply A. apply existsb_exists. exists x. split; [exact I|]. unfold defined. destruct (m x); congruence.
Qed.
Theorem C110_architecture_found : forall m a, (exists x, In x (arch_macros a) /\ m x <> None) -> (forall b x, In x (arch_macros b) -> m x <> None -> b = a) -> m "NAZARA_NO_ARCH_DETECTION" = None ->
  arch_of m = Some [a].
Proof.
  intros m a (x & I & D) U N. unfold arch_of, defined at 1. rewrite N. 
  assert (A : forall b, any_defined m (arch_macros b) = match a, b with Arm, Arm | AArch64, AArch64 | X86_64, X86_64 | X86, X86 | Wasm32, Wasm32 | Wasm64, Wasm64 => true | _, _ => false end).
  { intros b. destruct (any_defined m (arch_macros b)) eqn:E.
    - apply existsb_exists in E as (y & Iy & Dy). assert (b = a) by (apply (U b y Iy); unfold defined in Dy; destruct (m y); congruence). subst b. destruct a; reflexivity.
    - assert (b <> a). { intros ->. enough (any_defined m (arch_macros a) = true) by congruence. apply existsb_exists. exists x. split; [exact I|]. unfold defined. destruct (m x); congruence. }
      destruct a, b; congruence || reflexivity. }
  unfold archs. cbn [filter]. rewrite !A. destruct a; reflexivity.
Qed.
(** The macros by which compilers tell the architecture, written out. *)
Definition arch_table : list (string * arch) :=
  [("__arm__", Arm); ("__thumb__", Arm); ("__ARM_ARCH_7__", Arm); ("_M_ARM", Arm); ("__aarch64__", AArch64); ("__arm64__", AArch64); ("_M_ARM64", AArch64); ("_M_ARM64EC", AArch64);
   ("__amd64__", X86_64); ("__amd64", X86_64); ("__x86_64__", X86_64); ("__x86_64", X86_64); ("_M_AMD64", X86_64); ("_M_X64", X86_64);
   ("__i386__", X86); ("_M_IX86", X86); ("_X86_", X86); ("__wasm32__", Wasm32); ("__wasm64__", Wasm64)].
Theorem C110_architecture_macros : forall m x a, In (x, a) arch_table -> m x <> None -> (forall y b, In (y, b) arch_table -> m y <> None -> b = a) -> m "NAZARA_NO_ARCH_DETECTION" = None -> arch_of m = Some [a].
Proof.
  intros m x a HI HD U N. assert (T : forall y b, In y (arch_macros b) <-> In (y, b) arch_table).
  { intros y b. destruct b; cbn; split; intros H; repeat match type of H with _ \/ _ => destruct H as [H|H] end; try (injection H as <-); try (subst y); try discriminate; try contradiction; tauto. }
  apply C110_architecture_found; [exists x; split; [now apply T | exact HD] | | exact N]. intros b y HY. apply U. now apply T.
Qed.
(** Visual C++ for ARM64EC defines _M_X64 as well: an error. *)
Theorem C110_arm64ec_refuted : forall m, m "NAZARA_NO_ARCH_DETECTION" = None -> m "_M_ARM64EC" <> None -> m "_M_X64" <> None -> arch_of m = None.
Proof.
  intros m N A X. destruct (arch_of m) as [l|] eqn:E; [|reflexivity]. exfalso. destruct (C110_architecture m l N E) as (a & _ & _ & U).
  pose proof (U AArch64 "_M_ARM64EC" ltac:(cbn; tauto) A). pose proof (U X86_64 "_M_X64" ltac:(cbn; tauto) X). congruence.
Qed.

(** What the user defines decides the byte order; contradictions are errors. *)
Theorem C110_user_order : forall m, (m "NAZARA_BIG_ENDIAN" <> None -> m "NAZARA_LITTLE_ENDIAN" = None -> byte_order m = Some BigEndian) /\
  (m "NAZARA_LITTLE_ENDIAN" <> None -> m "NAZARA_BIG_ENDIAN" = None -> byte_order m = Some LittleEndian) /\
  (m "NAZARA_BIG_ENDIAN" <> None -> m "NAZARA_LITTLE_ENDIAN" <> None -> byte_order m = None).
Proof. intros m. unfold byte_order, defined. destruct (m "NAZARA_BIG_ENDIAN"), (m "NAZARA_LITTLE_ENDIAN"); repeat split; intros; try contradiction; try discriminate; reflexivity. Qed.

(** A compiler that tells the order with __BYTE_ORDER__, and system headers that agree with it, are believed, unless a macro in the lists of
    architectures says otherwise. *)
Definition order_macros (m : env) (big little : Z) (o : Z) : Prop :=
  m "__BYTE_ORDER__" = Some o /\ m "__ORDER_BIG_ENDIAN__" = Some big /\ m "__ORDER_LITTLE_ENDIAN__" = Some little.
Definition headers_say_big (m : env) : Prop :=
  (exists o, m "__BYTE_ORDER" = Some o /\ m "__BIG_ENDIAN" = Some o) \/ (exists o, m "BYTE_ORDER" = Some o /\ m "BIG_ENDIAN" = Some o).
Lemma says_false : forall m x y, ~ (exists o, m x = Some o /\ m y = Some o) -> says m x y = false.
Proof.
  intros m x y H. unfold says, defined, value. destruct (m x) as [a|] eqn:X; [|reflexivity]. destruct (m y) as [b|] eqn:Y; [|reflexivity]. cbn.
  apply Z.eqb_neq. intros ->. apply H. exists b. now split.
Qed.
Theorem C110_byte_order_partial : forall m big little, big <> little -> m "NAZARA_BIG_ENDIAN" = None -> m "NAZARA_LITTLE_ENDIAN" = None ->
  (order_macros m big little big -> byte_order m = Some BigEndian) /\
  (order_macros m big little little -> ~ headers_say_big m -> (forall x, In x big_names -> m x = None) -> m "__MISPEB__" = None -> byte_order m = Some LittleEndian).
Proof.
  intros m big little N B L. unfold byte_order. replace (defined m "NAZARA_BIG_ENDIAN") with false by (unfold defined; now rewrite B). replace (defined m "NAZARA_LITTLE_ENDIAN") with false by (unfold defined; now rewrite L). cbn [negb andb]. split.
  - intros (O & OB & OL). replace (says m "__BYTE_ORDER__" "__ORDER_BIG_ENDIAN__") with true by (unfold says, defined, value; rewrite O, OB; cbn; symmetry; apply Z.eqb_refl).
    now rewrite Bool.orb_true_r.
  - intros (O & OB & OL) H NB NM.
    assert (H1 : says m "__BYTE_ORDER" "__BIG_ENDIAN" = false) by (apply says_false; unfold headers_say_big in H; tauto).
    assert (H2 : says m "BYTE_ORDER" "BIG_ENDIAN" = false) by (apply says_false; unfold headers_say_big in H; tauto).
    replace (any_defined m big_names) with false.
    2:{ symmetry. destruct (any_defined m big_names) eqn:E; [|reflexivity]. apply existsb_exists in E as (x & I & D). unfold defined in D. now rewrite (NB x I) in D. }
    replace (defined m "__MISPEB__") with false by (unfold defined; now rewrite NM).
    replace (says m "__BYTE_ORDER__" "__ORDER_BIG_ENDIAN__") with false by (unfold says, defined, value; rewrite O, OB; cbn; symmetry; apply Z.eqb_neq; congruence).
    rewrite H1, H2, Bool.andb_false_r. cbn [orb].
    replace (says m "__BYTE_ORDER__" "__ORDER_LITTLE_ENDIAN__") with true by (unfold says, defined, value; rewrite O, OL; cbn; symmetry; apply Z.eqb_refl).
    rewrite Bool.orb_true_r. reflexivity.
Qed.
(** A name of an architecture decides when nothing speaks for the other order; Windows is little endian. *)
Definition big_table : list string := ["__m68k__"; "mc68000"; "_M_M68K"; "__ppc__"; "__POWERPC__"; "_M_PPC"; "__sparc__"; "__hppa__"; "__BIG_ENDIAN__"; "__ARMEB__"; "__THUMBEB__"; "__AARCH64EB__"; "_MIPSEB"; "__MIPSEB"; "__MIPSEB__"].
Definition little_table : list string := ["__i386__"; "__i386"; "__X86__"; "__x86_64"; "_M_I86"; "_M_IX86"; "_M_X64"; "__LITTLE_ENDIAN__"; "__ARMEL__"; "__THUMBEL__"; "__AARCH64EL__"; "_MIPSEL"; "__MIPSEL"; "__MIPSEL__"; "_WIN32"].
Definition order_says (m : env) (end_ : string) : Prop :=
  (exists o, m "__BYTE_ORDER__" = Some o /\ m (String.append "__ORDER_" (String.append end_ "_ENDIAN__")) = Some o) \/
  (exists o, m "__BYTE_ORDER" = Some o /\ m (String.append "__" (String.append end_ "_ENDIAN")) = Some o) \/
  (exists o, m "BYTE_ORDER" = Some o /\ m (String.append end_ "_ENDIAN") = Some o).
Lemma says_iff m x y : says m x y = true <-> exists o, m x = Some o /\ m y = Some o.
Proof.
  split; [|intros (o & X & Y); unfold says, defined, value; rewrite X, Y; cbn; apply Z.eqb_refl].
  unfold says, defined, value. destruct (m x) as [a|]; [|discriminate]. destruct (m y) as [b|]; [|discriminate]. cbn. rewrite Z.eqb_eq. intros ->. now exists b.
Qed.
Lemma any_iff m l : any_defined m l = true <-> exists x, In x l /\ m x <> None.
Proof.
  unfold any_defined, defined. rewrite existsb_exists. split; intros (x & I & D); exists x; (split; [exact I|]); destruct (m x); congruence.
Qed.
Theorem C110_byte_order_exactly : forall m, m "NAZARA_BIG_ENDIAN" = None -> m "NAZARA_LITTLE_ENDIAN" = None ->
  let big := (exists x, In x big_table /\ m x <> None) \/ (m "__MIPS__" <> None /\ m "__MISPEB__" <> None) \/ order_says m "BIG" in
  let little := (exists x, In x little_table /\ m x <> None) \/ order_says m "LITTLE" in
  (byte_order m = Some BigEndian <-> big) /\ (byte_order m = Some LittleEndian <-> ~ big /\ little) /\ (byte_order m = None <-> ~ big /\ ~ little).
Proof.
  intros m B L. cbv zeta. unfold byte_order. replace (defined m "NAZARA_BIG_ENDIAN") with false by (unfold defined; now rewrite B). replace (defined m "NAZARA_LITTLE_ENDIAN") with false by (unfold defined; now rewrite L). cbn [negb andb].
  assert (P : forall a b, a || b = true <-> a = true \/ b = true) by (intros; apply Bool.orb_true_iff).
  assert (BB : any_defined m big_names || defined m "__MIPS__" && defined m "__MISPEB__" || says m "__BYTE_ORDER__" "__ORDER_BIG_ENDIAN__" || says m "__BYTE_ORDER" "__BIG_ENDIAN" || says m "BYTE_ORDER" "BIG_ENDIAN" = true <->
    (exists x, In x big_table /\ m x <> None) \/ (m "__MIPS__" <> None /\ m "__MISPEB__" <> None) \/ order_says m "BIG").
  { rewrite !P, any_iff, !says_iff, Bool.andb_true_iff. unfold order_says. cbn [String.append]. change big_names with big_table.
    assert (D : forall x, defined m x = true <-> m x <> None) by (intros x; unfold defined; destruct (m x); split; congruence). rewrite !D. tauto. }
  assert (LL : any_defined m little_names || says m "__BYTE_ORDER__" "__ORDER_LITTLE_ENDIAN__" || says m "__BYTE_ORDER" "__LITTLE_ENDIAN" || says m "BYTE_ORDER" "LITTLE_ENDIAN" || defined m "_WIN32" = true <->
    (exists x, In x little_table /\ m x <> None) \/ order_says m "LITTLE").
  { rewrite !P, any_iff, !says_iff. unfold order_says. cbn [String.append]. change little_table with (little_names ++ ["_WIN32"])%list.
    assert (D : defined m "_WIN32" = true <-> m "_WIN32" <> None) by (unfold defined; destruct (m "_WIN32"); split; congruence). rewrite D.
    assert (W : (exists x, In x (little_names ++ ["_WIN32"])%list /\ m x <> None) <-> (exists x, In x little_names /\ m x <> None) \/ m "_WIN32" <> None).
    { split.
      - intros (x & I & N). apply in_app_or in I as [I|[<-|[]]]; [left; now exists x|now right].
      - intros [(x & I & N)|N]; [exists x; split; [apply in_or_app; now left|exact N]|exists "_WIN32"; split; [apply in_or_app; right; now left|exact N]]. }
    rewrite W. tauto. }
  rewrite <- BB, <- LL. destruct (_ || says m "BYTE_ORDER" "BIG_ENDIAN"), (_ || defined m "_WIN32"); repeat split; intros; try discriminate; try reflexivity; try (destruct H as [H1 H2]); congruence.
Qed.
(** The names of PowerPC are taken for big endian although the processor has both orders: a little endian one is misread. *)
Theorem C110_byte_order_refuted : forall m, m "NAZARA_BIG_ENDIAN" = None -> m "NAZARA_LITTLE_ENDIAN" = None -> order_macros m 4321 1234 1234 -> m "__POWERPC__" <> None -> byte_order m = Some BigEndian.
Proof.
  intros m B L _ P. unfold byte_order. replace (defined m "NAZARA_BIG_ENDIAN") with false by (unfold defined; now rewrite B). replace (defined m "NAZARA_LITTLE_ENDIAN") with false by (unfold defined; now rewrite L). cbn [negb andb].
  replace (any_defined m big_names) with true; [reflexivity|]. symmetry. apply existsb_exists. exists "__POWERPC__". split; [cbn; tauto|]. unfold defined. destruct (m "__POWERPC__"); congruence.
Qed.

(** FreeBSD is neither a desktop nor a mobile platform, unlike Linux and macOS. *)
Theorem C110_desktop_refuted : forall m h, m "_WIN32" = None -> m "__ANDROID__" = None -> m "__linux__" = None -> m "__FreeBSD__" <> None ->
  exists l, platforms m h = Some l /\ In FreeBsd l /\ ~ In Desktop l /\ ~ In Mobile l.
Proof.
  intros m h W A L F. exists [Bsd; FreeBsd; Posix]. unfold platforms, defined. rewrite W, A, L. destruct (m "__FreeBSD__"); [|contradiction].
  split; [reflexivity|]. cbn. intuition discriminate.
Qed.
(** "__MIPS__" alone decides nothing: the name tested with it is the misspelt "__MISPEB__". *)
Theorem C110_mips_name : forall m, (forall x, x <> "__MIPS__" -> m x = None) -> byte_order m = None.
Proof. intros m H. unfold byte_order, any_defined, says, defined, big_names, little_names. cbn [existsb].
  repeat match goal with |- context [m ?x] => lazymatch x with "__MIPS__" => fail | _ => rewrite (H x) by discriminate end end. now rewrite Bool.andb_false_r.
Qed.

(** ** Non-vacuity *)
Definition lookup (l : list (string * Z)) : env := fun x => option_map snd (List.find (fun p => String.eqb (fst p) x) l).
Definition gcc_linux : env := lookup [("__GNUC__", 13); ("__GNUC_MINOR__", 2); ("__cplusplus", 202002); ("__linux__", 1); ("__x86_64__", 1); ("__x86_64", 1); ("__amd64__", 1); ("__BYTE_ORDER__", 1234); ("__ORDER_BIG_ENDIAN__", 4321); ("__ORDER_LITTLE_ENDIAN__", 1234)].
Example C110_linux : compiler_of gcc_linux = Gcc /\ CheckGccVer gcc_linux 900 = true /\ CheckGccVer gcc_linux 1303 = false /\ language gcc_linux = Some 202002 /\ platforms gcc_linux false = Some [Desktop; Linux; Posix] /\ arch_of gcc_linux = Some [X86_64] /\ byte_order gcc_linux = Some LittleEndian.
Proof. repeat split. Qed.
Definition msvc_arm : env := lookup [("_MSC_VER", 1940); ("_MSVC_LANG", 201703); ("_WIN32", 1); ("_M_ARM64", 1)].
Example C110_windows : compiler_of msvc_arm = Msvc /\ CheckMsvcVer msvc_arm 1925 = true /\ language msvc_arm = Some 201703 /\ platforms msvc_arm false = Some [Desktop; Windows] /\ arch_of msvc_arm = Some [AArch64] /\ byte_order msvc_arm = Some LittleEndian.
Proof. repeat split. Qed.
Definition clang_s390 : env := lookup [("__clang__", 1); ("__clang_major__", 17); ("__GNUC__", 4); ("__cplusplus", 201703); ("__linux__", 1); ("__BYTE_ORDER__", 4321); ("__ORDER_BIG_ENDIAN__", 4321); ("__ORDER_LITTLE_ENDIAN__", 1234)].
Example C110_s390 : compiler_of clang_s390 = Clang /\ arch_of clang_s390 = None /\ byte_order clang_s390 = Some BigEndian.
Proof. repeat split. Qed.

Print Assumptions C110_one_compiler.
Print Assumptions C110_versions_partial.
Print Assumptions C110_versions_refuted.
Print Assumptions C110_clang.
Print Assumptions C110_compiler.
Print Assumptions C110_other_versions.
Print Assumptions C110_byte_order_exactly.
Print Assumptions C110_icc_refuted.
Print Assumptions C110_language.
Print Assumptions C110_platform.
Print Assumptions C110_platform_found.
Print Assumptions C110_architecture.
Print Assumptions C110_architecture_macros.
Print Assumptions C110_architecture_found.
Print Assumptions C110_arm64ec_refuted.
Print Assumptions C110_user_order.
Print Assumptions C110_byte_order_partial.
Print Assumptions C110_byte_order_refuted.
Print Assumptions C110_desktop_refuted.
Print Assumptions C110_mips_name.
