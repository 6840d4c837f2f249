(** Model of Hash.inl. Integers are N below 2^width. [sc] tells whether char is signed (it is on x86). Text in memory is a list of bytes; reading past
    its end is undefined.
    Which overload an array of chars selects is in OverloadModel.v. *)
From Verif Require Export Base.
Open Scope N_scope.

Definition wrap (w n : N) : N := n mod 2 ^ w.
(** ~, unary - on an unsigned type *)
Definition unot (w n : N) : N := 2 ^ w - 1 - n.
Definition uneg (w n : N) : N := wrap w (2 ^ w - n).
(** A char converted to an unsigned type of width [w]. *)
Definition char_to (sc : bool) (w b : N) : N := if sc && (128 <=? b) then wrap w (2 ^ w + b - 256) else b.

(** GenerateCRC32Table 14-39 *)
Definition crc_iteration (polynomial crc : N) : N := let mask := uneg 32 (N.land crc 1) in N.lxor (N.shiftr crc 1) (N.land polynomial mask).
Definition crc_entry (polynomial byte : N) : N := fold_left (fun crc _ => crc_iteration polynomial crc) (range 0 8) byte.
Definition GenerateCRC32Table (polynomial : N) : outcome (list N) :=
  foreach (range 0 256) (fun table i => vset table i (crc_entry polynomial (N.of_nat i))) (repeat 0 256).
(** 42, and the static_assert 43-48 *)
Definition s_crc32Table : list N := Eval vm_compute in match GenerateCRC32Table 0xEDB88320 with Done t => t | Fault _ => [] end.
Definition crc_step (crc c : N) : outcome N := t <- vget s_crc32Table (N.to_nat (N.land (N.lxor crc c) 0xFF)) ;; Done (N.lxor t (N.shiftr crc 8)).

(** A loop over the first [size] elements of an array, and a loop until the terminator. *)
Definition over_array (f : N -> N -> outcome N) (m : list N) (size : nat) (s : N) : outcome N := foreach (range 0 size) (fun s i => b <- vget m i ;; f s b) s.
Fixpoint over_cstring (f : N -> N -> outcome N) (m : list N) (s : N) : outcome N :=
  match m with
  | [] => Fault FUB
  | b :: m => if b =? 0 then Done s else s <- f s b ;; over_cstring f m s
  end.

(** CRC32 101-129 *)
Definition CRC32_cstr (sc : bool) (m : list N) : outcome N := crc <- over_cstring (fun crc b => crc_step crc (char_to sc 32 b)) m 0xFFFFFFFF ;; Done (unot 32 crc).
Definition CRC32_view (sc : bool) (m : list N) : outcome N := crc <- over_array (fun crc b => crc_step crc (char_to sc 32 b)) m (length m) 0xFFFFFFFF ;; Done (unot 32 crc).
Definition CRC32_bytes (m : list N) (size : nat) : outcome N := crc <- over_array crc_step m size 0xFFFFFFFF ;; Done (unot 32 crc).

(** The template for const char(&)[N], 131-135: the view of all N chars. *)
Definition CRC32_array (sc : bool) (m : list N) : outcome N := CRC32_view sc m.

(** FNV1a32 144-181 *)
Definition FNV1OffsetBasis_32 : N := 0x811c9dc5.
Definition FNV1Prime_32 : N := 0x1000193.
Definition fnv32_step (hash c : N) : outcome N := let hash := N.lxor hash c in Done (wrap 32 (hash * FNV1Prime_32)).
Definition FNV1a32_cstr (sc : bool) (m : list N) : outcome N := over_cstring (fun h b => fnv32_step h (char_to sc 32 b)) m FNV1OffsetBasis_32.
Definition FNV1a32_view (sc : bool) (m : list N) : outcome N := over_array (fun h b => fnv32_step h (char_to sc 32 b)) m (length m) FNV1OffsetBasis_32.
Definition FNV1a32_bytes (m : list N) (size : nat) : outcome N := over_array fnv32_step m size FNV1OffsetBasis_32.
Definition FNV1a32_array (sc : bool) (m : list N) : outcome N := FNV1a32_view sc m.
(** FNV1a64 196-233 *)
Definition FNV1OffsetBasis_64 : N := 0xcbf29ce484222325.
Definition FNV1Prime_64 : N := 0x100000001b3.
Definition fnv64_step (hash c : N) : outcome N := let hash := N.lxor hash c in Done (wrap 64 (hash * FNV1Prime_64)).
Definition FNV1a64_cstr (sc : bool) (m : list N) : outcome N := over_cstring (fun h b => fnv64_step h (char_to sc 64 b)) m FNV1OffsetBasis_64.
Definition FNV1a64_view (sc : bool) (m : list N) : outcome N := over_array (fun h b => fnv64_step h (char_to sc 64 b)) m (length m) FNV1OffsetBasis_64.
Definition FNV1a64_bytes (m : list N) (size : nat) : outcome N := over_array fnv64_step m size FNV1OffsetBasis_64.

Definition FNV1a64_array (sc : bool) (m : list N) : outcome N := FNV1a64_view sc m.

(** HashCombine(seed, v) 67-79, [h] being std::hash<T>{}(v), std::size_t of 64 bits *)
Definition HashCombine (seed h : N) : N :=
  let kMul := 0x9ddfea08eb382d69 in
  let a := wrap 64 (N.lxor h seed * kMul) in
  let a := N.lxor a (N.shiftr a 47) in
  let b := wrap 64 (N.lxor seed a * kMul) in
  let b := N.lxor b (N.shiftr b 47) in
  wrap 64 (b * kMul).
(** HashCombine(v, args...) 82-90 on the hashes of the arguments; [hasher] is std::hash<std::size_t> *)
Fixpoint HashCombine_all (hasher : N -> N) (h : N) (rest : list N) : N :=
  match rest with
  | [] => h
  | h' :: rest => HashCombine h (hasher (HashCombine_all hasher h' rest))
  end.
(** The same where std::size_t has [w] bits: seed and hash are below 2^[w], the arithmetic is in UInt64, and the last cast truncates. *)
Definition HashCombine_sized (w seed h : N) : N :=
  let kMul := 0x9ddfea08eb382d69 in
  let a := wrap 64 (N.lxor h seed * kMul) in
  let a := N.lxor a (N.shiftr a 47) in
  let b := wrap 64 (N.lxor seed a * kMul) in
  let b := N.lxor b (N.shiftr b 47) in
  wrap w (wrap 64 (b * kMul)).
