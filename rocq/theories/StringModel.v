(** Model of StringUtils.inl (17-83), StringHash.hpp/.inl (12-34), PathUtils.inl (17-45) and Retrieve (Algorithm.inl 172-191).
    Memory holds bytes (0..255); a [char] read from it is the byte, or the byte minus 256 from 0x80 on where char is signed.
    [char8_t] is unsigned. *)
From Verif Require Import Base CInt.
Open Scope Z_scope.

(** ** Memory: arrays of bytes *)
Definition memory := list (list Z).
Record pointer := MkPointer { p_obj : nat; p_off : nat }.
Record view := mkView { v_data : pointer; v_size : nat }.

(** The bytes from a pointer to the end of its array. *)
Definition bytes_from (m : memory) (p : pointer) : list Z := skipn (p_off p) (nth (p_obj p) m []).
(** std::char_traits::length: reading after the end of the array is undefined. *)
Fixpoint traits_length (l : list Z) : outcome nat :=
  match l with [] => Fault FUB | c :: r => if c =? 0 then Done 0%nat else n <- traits_length r ;; Done (S n) end.
(** basic_string_view from a pointer; null is undefined. *)
Definition view_of_cstring (m : memory) (p : option pointer) : outcome view :=
  match p with None => Fault FUB | Some p => n <- traits_length (bytes_from m p) ;; Done (mkView p n) end.
(** The bytes of a view. *)
Definition view_bytes (m : memory) (v : view) : list Z := firstn (v_size v) (bytes_from m (v_data v)).
(** basic_string from a pointer and a size: a copy. *)
Definition string_of (m : memory) (v : view) : list Z := view_bytes m v.
(** Element types. *)
Definition char_value (signed_char : bool) (b : Z) : Z := if signed_char && (128 <=? b) then b - 256 else b.
Definition char8_value (b : Z) : Z := b.

(** ** StringUtils (C++20: 22-35 and 63-76; before: 38-51 and 79-92).
    reinterpret_cast keeps the address; only the element type changes, so values of type [view] and lists of bytes serve both. *)
Definition FromUtf8_cstring (m : memory) (p : option pointer) : outcome view := view_of_cstring m p.
Definition FromUtf8_string (s : list Z) : list Z := firstn (length s) s.
Definition FromUtf8_view (v : view) : view := mkView (v_data v) (v_size v).
Definition ToUtf8_view (v : view) : view := mkView (v_data v) (v_size v).
Definition ToUtf8_cstring (m : memory) (p : option pointer) : outcome view := v <- view_of_cstring m p ;; Done (ToUtf8_view v).
Definition ToUtf8_string (s : list Z) : list Z := firstn (length s) s.
(** Before C++20 the pointer overloads return a std::string, built from the pointer. *)
Definition FromUtf8_cstring_17 (m : memory) (p : option pointer) : outcome (list Z) := v <- view_of_cstring m p ;; Done (string_of m v).
Definition FromUtf8_string_17 (s : list Z) : list Z := s.
Definition FromUtf8_view_17 (v : view) : view := v.

(** ** StringHash *)
Section Hash.
  (** std::hash<std::basic_string_view<T>>: any function of the characters. *)
  Context (hash : list Z -> Z).
  (** The argument types: a pointer (with the memory from it on), a view, a string. *)
  Inductive key := KPointer (l : list Z) | KView (l : list Z) | KString (l : list Z).
  (** The implicit conversion to std::basic_string_view. *)
  Definition key_view (k : key) : outcome (list Z) :=
    match k with KPointer l => n <- traits_length l ;; Done (firstn n l) | KView l | KString l => Done l end.
  Definition StringHash (k : key) : outcome Z := l <- key_view k ;; Done (hash l).
  Fixpoint same (a b : list Z) : bool :=
    match a, b with [], [] => true | x :: a, y :: b => (x =? y) && same a b | _, _ => false end.
  (** std::equal_to<>: operator== of a std::string and the key. *)
  Definition equal_to (s : list Z) (k : key) : outcome bool := l <- key_view k ;; Done (same s l).

  (** *** std::unordered_map<std::string, V, StringHash, std::equal_to<>>: chains of entries. *)
  Context {V : Type}.
  Definition umap := list (list (list Z * V)).
  Definition bucket (m : umap) (h : Z) : nat := Z.to_nat (h mod Z.of_nat (length m)).
  Fixpoint search (c : list (list Z * V)) (k : key) : outcome (option nat) :=
    match c with
    | [] => Done None
    | (s, _) :: c => e <- equal_to s k ;; if (e : bool) then Done (Some 0%nat) else i <- search c k ;; Done (option_map S i)
    end.
  (** An iterator: bucket and position; None is end(). *)
  Definition umap_find (m : umap) (k : key) : outcome (option (nat * nat)) :=
    match m with
    | [] => key_view k ;;; Done None
    | _ => h <- StringHash k ;; let b := bucket m h in i <- search (nth b m []) k ;; Done (option_map (pair b) i)
    end.
  Definition entry (m : umap) (it : nat * nat) : outcome (list Z * V) := c <- vget m (fst it) ;; vget c (snd it).
  Definition set_entry (m : umap) (it : nat * nat) (v : V) : outcome umap :=
    c <- vget m (fst it) ;; e <- vget c (snd it) ;; c <- vset c (snd it) (fst e, v) ;; vset m (fst it) c.
  (** Placing a new entry; [rehash n]: all the entries in [n] buckets. *)
  Definition place (m : umap) (s : list Z) (v : V) : umap :=
    let b := bucket m (hash s) in upd m b ((s, v) :: nth b m []).
  Definition rehash (m : umap) (n : nat) : umap :=
    fold_left (fun m e => place m (fst e) (snd e)) (concat m) (repeat [] n).
  (** map[k] = v; [grow]: the number of buckets to rehash to before inserting, when the implementation decides so. *)
  Definition umap_assign (grow : option nat) (m : umap) (s : list Z) (v : V) : outcome umap :=
    it <- umap_find m (KString s) ;;
    match it with
    | Some it => set_entry m it v
    | None => let m := match grow with Some n => rehash m n | None => m end in require (0 <? length m)%nat ;;; Done (place m s v)
    end.
  Definition umap_erase (m : umap) (k : key) : outcome umap :=
    it <- umap_find m k ;;
    match it with
    | Some (b, i) => c <- vget m b ;; vset m b (firstn i c ++ skipn (S i) c)
    | None => Done m
    end.

  (** *** Retrieve (Algorithm.inl 172-191): [asserts] says whether NazaraAssert is compiled in. Incrementing or reading end() is undefined. *)
  Definition Retrieve (asserts : bool) (m : umap) (k : key) : outcome (nat * nat) :=
    it <- umap_find m k ;;
    (if asserts then assert (match it with Some _ => true | None => false end) else Done tt) ;;;
    match it with Some it => Done it | None => Fault FUB end.
End Hash.

(** ** PathUtils *)
(** POSIX: std::filesystem::path stores bytes; conversions from and to char8_t copy them. *)
Definition posix_Utf8Path (s : list Z) : list Z := ToUtf8_string s.
Definition posix_PathToString (p : list Z) : list Z := FromUtf8_string p.

(** Windows: the path is stored as UTF-16 and converted. UTF-8 ([utf8_encode], RFC 3629) and UTF-16 of one code point: *)
Definition utf8_char (c : Z) : list Z :=
  if c <? 0x80 then [c]
  else if c <? 0x800 then [0xC0 + c / 64; 0x80 + c mod 64]
  else if c <? 0x10000 then [0xE0 + c / 4096; 0x80 + (c / 64) mod 64; 0x80 + c mod 64]
  else [0xF0 + c / 262144; 0x80 + (c / 4096) mod 64; 0x80 + (c / 64) mod 64; 0x80 + c mod 64].
Definition utf16_char (c : Z) : list Z :=
  if c <? 0x10000 then [c] else [0xD800 + (c - 0x10000) / 1024; 0xDC00 + (c - 0x10000) mod 1024].
Definition continuation (b : Z) : bool := (0x80 <=? b) && (b <=? 0xBF).
Definition scalar (c : Z) : bool := ((0 <=? c) && (c <? 0xD800)) || ((0xE000 <=? c) && (c <? 0x110000)).
(** Decoding; [None] for text that is not valid UTF-8 or UTF-16 (the conversion reports an error). *)
Fixpoint utf8_decode (l : list Z) : option (list Z) :=
  match l with
  | [] => Some []
  | a :: l1 =>
    if a <? 0x80 then option_map (cons a) (utf8_decode l1)
    else match l1 with
    | [] => None
    | b :: l2 =>
      if (0xC2 <=? a) && (a <? 0xE0) then
        if continuation b then option_map (cons ((a - 0xC0) * 64 + (b - 0x80))) (utf8_decode l2) else None
      else match l2 with
      | [] => None
      | d :: l3 =>
        if (0xE0 <=? a) && (a <? 0xF0) then
          let c := (a - 0xE0) * 4096 + (b - 0x80) * 64 + (d - 0x80) in
          if continuation b && continuation d && (0x800 <=? c) && scalar c then option_map (cons c) (utf8_decode l3) else None
        else match l3 with
        | [] => None
        | e :: l4 =>
          let c := (a - 0xF0) * 262144 + (b - 0x80) * 4096 + (d - 0x80) * 64 + (e - 0x80) in
          if (0xF0 <=? a) && (a <? 0xF5) && continuation b && continuation d && continuation e && (0x10000 <=? c) && scalar c
          then option_map (cons c) (utf8_decode l4) else None
        end
      end
    end
  end.
Fixpoint utf16_decode (l : list Z) : option (list Z) :=
  match l with
  | [] => Some []
  | a :: l1 =>
    if (0xD800 <=? a) && (a <? 0xDC00) then
      match l1 with
      | [] => None
      | b :: l2 => if (0xDC00 <=? b) && (b <? 0xE000) then option_map (cons (0x10000 + (a - 0xD800) * 1024 + (b - 0xDC00))) (utf16_decode l2) else None
      end
    else if (0xDC00 <=? a) && (a <? 0xE000) then None
    else option_map (cons a) (utf16_decode l1)
  end.
Definition utf8_encode (t : list Z) : list Z := flat_map utf8_char t.
Definition utf16_encode (t : list Z) : list Z := flat_map utf16_char t.
(** A conversion error is an exception. *)
Definition converted {A} (o : option A) : outcome A := match o with Some a => Done a | None => Fault FThrow end.
Definition windows_Utf8Path (s : list Z) : outcome (list Z) := t <- converted (utf8_decode (ToUtf8_string s)) ;; Done (utf16_encode t).
(** generic_u8string: '/' as separator. *)
Definition backslash := 0x5C. Definition slash := 0x2F.
Definition generic (p : list Z) : list Z := map (fun c => if c =? backslash then slash else c) p.
Definition windows_PathToString (p : list Z) : outcome (list Z) := t <- converted (utf16_decode (generic p)) ;; Done (FromUtf8_string (utf8_encode t)).
