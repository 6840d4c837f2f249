(** CRC-32 and FNV-1a of byte strings, from their definitions. *)
From Verif Require Export Base.
Open Scope N_scope.

(** A byte string is a list of numbers below 256. *)
Definition bytes (l : list N) : Prop := Forall (fun b => b < 256) l.

(** The bits of a byte, least significant first (the order of a reflected CRC). *)
Definition bits_of (b : N) : list bool := map (N.testbit b) [0; 1; 2; 3; 4; 5; 6; 7].
(** One bit enters the register of the CRC (ISO 3309 / ITU-T V.42, reflected). *)
Definition crc_bit (r : N) (bit : bool) : N := let s := r / 2 in if xorb (N.odd r) bit then N.lxor s 0xEDB88320 else s.
(** All ones at the beginning, complemented at the end. *)
Definition crc32 (l : list N) : N := 2 ^ 32 - 1 - fold_left crc_bit (concat (map bits_of l)) (2 ^ 32 - 1).

(** FNV-1a (RFC draft-eastlake-fnv) *)
Definition fnv (basis prime width : N) (l : list N) : N := fold_left (fun h b => N.lxor h b * prime mod 2 ^ width) l basis.
Definition fnv1a_32 : list N -> N := fnv 2166136261 (2 ^ 24 + 2 ^ 8 + 0x93) 32.
Definition fnv1a_64 : list N -> N := fnv 14695981039346656037 (2 ^ 40 + 2 ^ 8 + 0xb3) 64.
