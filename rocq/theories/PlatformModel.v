(** Model of the preprocessor conditionals of Prerequisites.hpp (compiler 28-107, versions 186-190, platform 192-281, architecture 399-444) and
    Endianness.hpp (20-41, 53-57).
    A translation unit starts with the macros the compiler and the command line define: an environment from names to integer values.
    An #error is [None]. In an #if an undefined name is 0.
    Simplified: the environment does not predefine the macros the headers themselves introduce (NAZARA_CPP_VER, NAZARA_CHECK_..., NAZARA_ARCH_...), except
    the three that are meant for users (NAZARA_NO_ARCH_DETECTION, NAZARA_BIG_ENDIAN, NAZARA_LITTLE_ENDIAN); it already holds what <endian.h>,
    TargetConditionals.h define. [ndk_header] says whether <android/ndk-version.h> exists. Macro values are integers of any size. *)
From Coq Require Export String.
From Verif Require Export Base.
Open Scope string_scope.
Open Scope Z_scope.

Definition env := string -> option Z.
Definition defined (m : env) (x : string) : bool := match m x with Some _ => true | None => false end.
Definition value (m : env) (x : string) : Z := match m x with Some v => v | None => 0 end.
Definition any_defined (m : env) (l : list string) : bool := existsb (defined m) l.

(** ** Compiler, 28-107 *)
Inductive compiler := Clang | Gcc | Icc | Msvc | UnknownCompiler.
Definition compiler_of (m : env) : compiler :=
  if defined m "__clang__" then Clang
  else if defined m "__GNUC__" || defined m "__MINGW32__" then Gcc
  else if defined m "__INTEL_COMPILER" || defined m "__ICL" then Icc
  else if defined m "_MSC_VER" then Msvc
  else UnknownCompiler.
(** NAZARA_COMPILER_..._VER and NAZARA_CHECK_..._VER, which is 0 for the others (119-133) *)
Definition CheckClangVer (m : env) (ver : Z) : bool := match compiler_of m with Clang => ver <=? value m "__clang_major__" * 100 + value m "__clang_minor__" | _ => false end.
Definition CheckGccVer (m : env) (ver : Z) : bool := match compiler_of m with Gcc => ver <=? value m "__GNUC__" * 100 + value m "__GNUC_MINOR__" | _ => false end.
Definition CheckIccVer (m : env) (ver : Z) : bool := match compiler_of m with Icc => ver <=? value m "__INTEL_COMPILER" | _ => false end.
Definition CheckMsvcVer (m : env) (ver : Z) : bool := match compiler_of m with Msvc => ver <=? value m "_MSC_VER" | _ => false end.

(** ** Version of the language, 97, 135-137, 186-190 *)
Definition CppVer (m : env) : Z := match compiler_of m with Msvc => value m "_MSVC_LANG" | _ => value m "__cplusplus" end.
Definition CPP17 := 201703. Definition CPP20 := 202002. Definition CPP23 := 202302.
Definition CheckCppVer (m : env) (ver : Z) : bool := ver <=? CppVer m.
Definition language (m : env) : option Z := if negb (CheckCppVer m CPP17) then None else Some (CppVer m).

(** ** Platform, 192-281: the macros NAZARA_PLATFORM_... it defines *)
Inductive platform := Desktop | Mobile | Windows | Android | Linux | FreeBsd | Ios | MacOs | Web | Bsd | Posix | UnknownPlatform.
Definition platforms (m : env) (ndk_header : bool) : option (list platform) :=
  if defined m "_WIN32" then Some [Desktop; Windows]
  else if defined m "__ANDROID__" then (if negb ndk_header then None else Some [Mobile; Android; Posix])
  else if defined m "__linux__" then Some [Desktop; Linux; Posix]
  else if defined m "__FreeBSD__" then Some [Bsd; FreeBsd; Posix]
  else if defined m "__APPLE__" then Some (if negb (value m "TARGET_OS_IPHONE" =? 0) then [Mobile; Ios; Bsd; Posix] else [Desktop; MacOs; Bsd; Posix])
  else if defined m "__EMSCRIPTEN__" then Some [Web; Posix]
  else Some [UnknownPlatform].

(** ** Architecture, 399-444 *)
Inductive arch := Arm | AArch64 | X86_64 | X86 | Wasm32 | Wasm64.
Definition arch_macros (a : arch) : list string :=
  match a with
  | Arm => ["__arm__"; "__thumb__"; "__ARM_ARCH_7__"; "_M_ARM"]
  | AArch64 => ["__aarch64__"; "_M_ARM64"; "_M_ARM64EC"; "__arm64__"]
  | X86_64 => ["__amd64__"; "__amd64"; "__x86_64__"; "__x86_64"; "_M_AMD64"; "_M_X64"]
  | X86 => ["__i386__"; "_M_IX86"; "_X86_"]
  | Wasm32 => ["__wasm32__"]
  | Wasm64 => ["__wasm64__"]
  end.
Definition archs : list arch := [Arm; AArch64; X86_64; X86; Wasm32; Wasm64].
(** The macros NAZARA_ARCH_... defined *)
Definition arch_of (m : env) : option (list arch) :=
  if defined m "NAZARA_NO_ARCH_DETECTION" then Some []
  else
    let l := filter (fun a => any_defined m (arch_macros a)) archs in
    if negb (Nat.eqb (length l) 1) then None else Some l.

(** ** Byte order, Endianness.hpp 20-41, 53-57 *)
Inductive endianness := BigEndian | LittleEndian.
Definition big_names : list string :=
  ["__m68k__"; "mc68000"; "_M_M68K"; "__ppc__"; "__POWERPC__"; "_M_PPC"; "__sparc__"; "__hppa__"; "__BIG_ENDIAN__"; "__ARMEB__"; "__THUMBEB__"; "__AARCH64EB__";
   "_MIPSEB"; "__MIPSEB"; "__MIPSEB__"].
Definition little_names : list string :=
  ["__i386__"; "__i386"; "__X86__"; "__x86_64"; "_M_I86"; "_M_IX86"; "_M_X64"; "__LITTLE_ENDIAN__"; "__ARMEL__"; "__THUMBEL__"; "__AARCH64EL__";
   "_MIPSEL"; "__MIPSEL"; "__MIPSEL__"].
Definition says (m : env) (order constant : string) : bool := defined m order && defined m constant && (value m order =? value m constant).
Definition byte_order (m : env) : option endianness :=
  if negb (defined m "NAZARA_BIG_ENDIAN") && negb (defined m "NAZARA_LITTLE_ENDIAN") then
    if any_defined m big_names || (defined m "__MIPS__" && defined m "__MISPEB__")
       || says m "__BYTE_ORDER__" "__ORDER_BIG_ENDIAN__" || says m "__BYTE_ORDER" "__BIG_ENDIAN" || says m "BYTE_ORDER" "BIG_ENDIAN" then Some BigEndian
    else if any_defined m little_names
       || says m "__BYTE_ORDER__" "__ORDER_LITTLE_ENDIAN__" || says m "__BYTE_ORDER" "__LITTLE_ENDIAN" || says m "BYTE_ORDER" "LITTLE_ENDIAN" || defined m "_WIN32" then Some LittleEndian
    else None
  else if defined m "NAZARA_BIG_ENDIAN" && defined m "NAZARA_LITTLE_ENDIAN" then None
  else if defined m "NAZARA_BIG_ENDIAN" then Some BigEndian else Some LittleEndian.
