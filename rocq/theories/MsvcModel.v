(** The paths MathUtils.inl takes at run time when it is compiled by MSVC, where long has 32 bits.
    A type is its sign and width; [is_long] tells long and unsigned long from int and unsigned int, which have the same width.
    Not modelled: _byteswap_ushort, _byteswap_ulong and _byteswap_uint64 (210-211, 229-230, 250-251), which reverse bytes by their documentation. *)
From Verif Require Import Base CInt MathModel SafeCastModel.
Open Scope Z_scope.

(** NAZARA_ARCH_x86, NAZARA_ARCH_x86_64, NAZARA_ARCH_arm and NAZARA_ARCH_aarch64 *)
Inductive march := X86 | X64 | Arm | Arm64.

(** ** Intrinsics, by their documentation *)
(** __popcnt16, __popcnt, __popcnt64: the number of one bits of a value of [w] bits. *)
Definition popcnt (w v : Z) : nat := builtin_popcount (cast (mkIty false w) v).
(** _BitScanForward, _BitScanReverse and their 64-bit versions: None when the mask is 0 (they return 0), else the position of the lowest or highest
    one bit (they return nonzero and store the position). The mask is converted to the parameter of [w] bits. *)
Definition BitScanForward (w v : Z) : option Z :=
  match cast (mkIty false w) v with Zpos p => Some (Z.of_nat (pos_ffs p) - 1) | _ => None end.
Definition BitScanReverse (w v : Z) : option Z :=
  match cast (mkIty false w) v with Zpos p => Some (Z.log2 (Zpos p)) | _ => None end.

(** ** CountBits, 324-340. None: a static_assert fails. Without x86 there is no intrinsic and the loop of constant evaluation runs. *)
Definition CountBits_msvc (a : march) (is_long : bool) (t : ity) (value : Z) : option (outcome nat) :=
  match a with
  | X86 | X64 =>
    if wid t =? 64 then
      Some (Done match a with X64 => popcnt 64 value | _ => (popcnt 32 (Z.shiftr value 32) + popcnt 32 value)%nat end)
    else if (wid t =? 32) && negb is_long then Some (Done (popcnt 32 value))
    else if wid t <=? 16 then Some (Done (popcnt 16 value)) else None
  | Arm | Arm64 => Some (CountBits_ce t value)
  end.

(** SafeCast<unsigned long>, of a temporary. [debug]: NAZARA_DEBUG is defined and NDEBUG is not. *)
Definition to_ulong (debug : bool) (t : ity) (v : Z) : outcome Z := SafeCast debug Rvalue (TArith (AInt t)) (TArith (AInt u32)) v.

(** ** FindFirstBit, 372-398. [number & 0xFFFFFFFF] and [number >> 32] have the type of number. *)
Definition FindFirstBit_msvc (debug : bool) (a : march) (t : ity) (number : Z) : outcome Z :=
  if wid t <=? 32 then Done match BitScanForward 32 number with Some i => i + 1 | None => 0 end
  else match a with
  | X64 | Arm64 => Done match BitScanForward 64 number with Some i => i + 1 | None => 0 end
  | X86 | Arm =>
    low <- to_ulong debug t (Z.land number 0xFFFFFFFF) ;;
    match BitScanForward 32 low with
    | Some i => Done (i + 1)
    | None => high <- to_ulong debug t (Z.shiftr number 32) ;; Done match BitScanForward 32 high with Some i => i + 33 | None => 0 end
    end
  end.

(** ** FindLastBit, 430-456 *)
Definition FindLastBit_msvc (debug : bool) (a : march) (t : ity) (number : Z) : outcome Z :=
  if wid t <=? 32 then Done match BitScanReverse 32 number with Some i => i + 1 | None => 0 end
  else match a with
  | X64 | Arm64 => Done match BitScanReverse 64 number with Some i => i + 1 | None => 0 end
  | X86 | Arm =>
    high <- to_ulong debug t (Z.shiftr number 32) ;;
    match BitScanReverse 32 high with
    | Some i => Done (i + 33)
    | None => low <- to_ulong debug t (Z.land number 0xFFFFFFFF) ;; Done match BitScanReverse 32 low with Some i => i + 1 | None => 0 end
    end
  end.
