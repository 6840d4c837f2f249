(** Model of include/NazaraUtils/TypeName.inl. Texts are lists of characters; sizes and positions are std::size_t values. *)
From Coq Require Import Ascii String.
From Verif Require Import Base CInt.
Open Scope list_scope.
Open Scope Z_scope.

Definition text := list ascii.
Definition txt (s : string) : text := list_ascii_of_string s.
Definition npos : Z := tmax u64.
Definition size (s : text) : Z := Z.of_nat (List.length s).

Fixpoint starts (pat s : text) : bool :=
  match pat, s with
  | [], _ => true
  | _, [] => false
  | x :: p, y :: r => Ascii.eqb x y && starts p r
  end.
Fixpoint first_index (pat s : text) : option nat :=
  if starts pat s then Some O else match s with [] => None | _ :: r => option_map S (first_index pat r) end.
Fixpoint last_index (f : ascii -> bool) (s : text) : option nat :=
  match s with
  | [] => None
  | x :: r => match last_index f r with Some k => Some (S k) | None => if f x then Some O else None end
  end.
Definition one_of (set : text) (c : ascii) : bool := existsb (Ascii.eqb c) set.
Definition position (k : option nat) : Z := match k with Some n => Z.of_nat n | None => npos end.
(** std::string_view: find, find_last_of and substr (which throws std::out_of_range). *)
Definition find (s pat : text) : Z := position (first_index pat s).
Definition find_last_of (s set : text) (pos : Z) : Z := position (last_index (one_of set) (firstn (Z.to_nat (Z.min pos (size s)) + 1) s)).
Definition substr (s : text) (p n : Z) : outcome text :=
  if p <=? size s then Done (firstn (Z.to_nat (Z.min n (size s - p))) (skipn (Z.to_nat p) s)) else Fault FThrow.

(** TypeName.inl 6-29; std::size_t arithmetic wraps, a failing static_assert is [FAssert]. *)
Definition extract (prefix suffixes pretty : text) : outcome text :=
  let b := find pretty prefix in
  assert (negb (b =? npos)) ;;;
  s <- substr pretty b npos ;;
  let e := cast u64 (find_last_of s suffixes b + b) in
  assert (negb (e =? npos)) ;;;
  let p := cast u64 (b + size prefix) in
  substr pretty p (cast u64 (e - p)).
(** 31-42, MSVC only *)
Fixpoint strip (prefixes : list text) (name : text) : text :=
  match prefixes with [] => name | t :: r => if starts t name then skipn (List.length t) name else strip r name end.
Definition msvc_prefixes := map txt ["class "; "struct "; "enum "; "enum class "; "enum struct"]%string.

Definition prefix_gnu := txt "T = ".       Definition suffixes_gnu := txt ";]".
Definition prefix_msvc := txt "NzDetailTypeName<".  Definition suffixes_msvc := txt ">".
Definition type_name_gnu (pretty : text) : outcome text := extract prefix_gnu suffixes_gnu pretty.
Definition type_name_msvc (pretty : text) : outcome text := n <- extract prefix_msvc suffixes_msvc pretty ;; Done (strip msvc_prefixes n).

(** NAZARA_PRETTY_FUNCTION in NzDetailTypeName<X>, as the compilers write it. *)
Definition before_gcc := txt "constexpr std::string_view NzDetailTypeName() [with ".
Definition after_gcc := txt "; std::string_view = std::basic_string_view<char>]".
Definition before_clang := txt "std::string_view NzDetailTypeName() [".
Definition after_clang := txt "]".
Definition before_msvc := txt "class std::basic_string_view<char,struct std::char_traits<char> > __cdecl ".
Definition after_msvc := txt ">(void)".
Definition pretty_gcc (X : text) : text := before_gcc ++ prefix_gnu ++ X ++ after_gcc.
Definition pretty_clang (X : text) : text := before_clang ++ prefix_gnu ++ X ++ after_clang.
Definition pretty_msvc (X : text) : text := before_msvc ++ prefix_msvc ++ X ++ after_msvc.
