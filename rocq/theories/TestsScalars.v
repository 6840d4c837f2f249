(** tests/src/MathTests.cpp, HashTests.cpp, EndiannessTest.cpp and the SafeCast part of AlgorithmTests.cpp of the library, run on the model.
    The static_asserts are evaluated by the constant evaluation paths, the CHECKs by those at run time. *)
From Coq Require Import Ascii String QArith.
From Coq Require Import ZArith.
From Coq.Floats Require Import SpecFloat.
From Verif Require Import Base CInt MathModel FloatModel HashModel ConstantsModel SafeCastModel.
Open Scope Z_scope.

(** ** MathTests *)
Example test_CountBits_ce : CountBits_ce i32 65 = Done 2%nat.
Proof. reflexivity. Qed.
Example test_FindFirstBit_ce :
  map (fun '(t, n) => FindFirstBit_ce t n)
    [(i32, 0); (i32, 0x35); (i32, 0x34); (i8, MinValue i8); (i16, MinValue i16); (i32, MinValue i32); (i64, MinValue i64);
     (u8, MaxValue u8); (u16, MaxValue u16); (u32, MaxValue u32); (u64, MaxValue u64);
     (i8, cast i8 (MaxValue u8)); (i16, cast i16 (MaxValue u16)); (i32, cast i32 (MaxValue u32)); (i64, cast i64 (MaxValue u64))] =
  map Done [0; 1; 3; 8; 16; 32; 64; 1; 1; 1; 1; 1; 1; 1; 1].
Proof. vm_compute. reflexivity. Qed.
Example test_FindLastBit_ce :
  map (fun '(t, n) => FindLastBit_ce t n)
    [(i32, 0); (i32, 1); (i32, 2); (i32, 0x35); (i32, 0x34); (i32, 32767);
     (i8, MaxValue i8); (i16, MaxValue i16); (i32, MaxValue i32); (i64, MaxValue i64); (u8, MaxValue u8); (u16, MaxValue u16); (u32, MaxValue u32); (u64, MaxValue u64);
     (i8, cast i8 (MaxValue u8)); (i16, cast i16 (MaxValue u16)); (i32, cast i32 (MaxValue u32)); (i64, cast i64 (MaxValue u64))] =
  [0; 1; 2; 6; 6; 15; 7; 15; 31; 63; 8; 16; 32; 64; 8; 16; 32; 64].
Proof. vm_compute. reflexivity. Qed.
Example test_bits : (SetBit i32 0x31 1, TestBit i32 0x31 0, TestBit i32 0x31 1) = (Done 0x33, Done true, Done false).
Proof. vm_compute. reflexivity. Qed.
(** The templates of the tests; [max() / 2] has the promoted type. *)
Definition up_to (t : ity) : list Z := map Z.of_nat (seq 0 (Z.to_nat (wid t))).
Definition TestCountBits (t : ity) : bool :=
  (CountBits_rt t 0 =? 0)%nat && (CountBits_rt t (tmax t) =? Z.to_nat (wid t))%nat && (CountBits_rt (promote t) (tmax t / 2) =? Z.to_nat (wid t) - 1)%nat &&
  forallb (fun i => (CountBits_rt t (2 ^ i) =? 1)%nat) (up_to t).
Definition TestFindFirstBit (t : ity) : bool := (FindFirstBit_rt t 0 =? 0)%nat && forallb (fun i => Z.of_nat (FindFirstBit_rt t (2 ^ i)) =? i + 1) (up_to t).
Definition TestFindLastBit (t : ity) : bool :=
  match FindLastBit_rt t 0 with Done 0 => true | _ => false end && forallb (fun i => match FindLastBit_rt t (2 ^ (i + 1) - 1) with Done n => n =? i + 1 | Fault _ => false end) (up_to t).
Example test_bits_templates : forallb (fun t => TestCountBits t && TestFindFirstBit t && TestFindLastBit t) [u8; u16; u32; u64] = true.
Proof. vm_compute. reflexivity. Qed.
Example test_ArithmeticRightShift : forall cpp20 impl_arith, map (fun v => ArithmeticRightShift cpp20 impl_arith i32 i32 v 5) [64; -64] = [Done 2; Done (-2)].
Proof. intros [|] [|]; vm_compute; reflexivity. Qed.
Example test_ByteSwap :
  map (fun '(t, v) => ByteSwap t (cast t v)) [(i16, 0xABCD); (u16, 0xABCD); (i32, 0xABCDEF01); (u32, 0xABCDEF01); (i64, 0xABCDEF0102030405); (u64, 0xABCDEF0102030405)] =
  map (fun '(t, v) => cast t v) [(i16, 0xCDAB); (u16, 0xCDAB); (i32, 0x01EFCDAB); (u32, 0x01EFCDAB); (i64, 0x0504030201EFCDAB); (u64, 0x0504030201EFCDAB)].
Proof. vm_compute. reflexivity. Qed.
Definition f42 : spec_float := of_Z 24 128 42.
Example test_classification : forall ce,
  (IsFinite ce (FloatMaxValue 24 128), IsFinite ce f42, IsInfinity ce FloatInfinity, IsNaN ce FloatNaN, IsNaN ce f42, IsNaN ce FloatInfinity) = (true, true, true, true, false, false).
Proof. intros [|]; vm_compute; reflexivity. Qed.
Example test_Mod : Mod i32 3 2 = Done 1 /\ forall ce, FloatMod 24 128 ce (of_Z 24 128 3) (of_Z 24 128 2) = Done (of_Z 24 128 1).
Proof. split; [|intros [|]]; vm_compute; reflexivity. Qed.
Example test_RoundToPow2 :
  map (fun '(t, v) => RoundToPow2 t v) [(u32, 2); (u32, 7); (u32, 24); (i32, 3999); (i32, 4096); (u32, 2000000000); (u64, 4000000000); (u64, 9000000000000000000); (i32, 4000); (i32, 32769)] =
  map Done [2; 8; 32; 4096; 4096; 2147483648; 4294967296; 9223372036854775808; 4096; 65536].
Proof. vm_compute. reflexivity. Qed.

(** ** HashTests. A literal is passed to the overload for pointers (C113). *)
Definition text (s : string) : list N := map N_of_ascii (list_ascii_of_string s).
Definition TestHash (cstr view : bool -> list N -> outcome N) (bytes : list N -> nat -> outcome N) (s : string) (expected : N) : bool :=
  let is o := match o with Done h => (h =? expected)%N | Fault _ => false end in
  forallb (fun sc => is (cstr sc (text s ++ [0%N])) && is (view sc (text s))) [false; true] && is (bytes (text s) (length (text s))).
Definition nazara : string := "Nazara Engine". Definition lynix : string := "t.tv/SirLynixVanFriejtes". Definition fox : string := "The quick brown fox jumps over the lazy dog".
Example test_CRC32 : map (fun '(s, h) => TestHash CRC32_cstr CRC32_view CRC32_bytes s h) [(nazara, 0x8a2f5235%N); (lynix, 0xcc2a0914%N); (fox, 0x414fa339%N)] = [true; true; true].
Proof. vm_compute. reflexivity. Qed.
Example test_FNV1a32 : map (fun '(s, h) => TestHash FNV1a32_cstr FNV1a32_view FNV1a32_bytes s h) [(nazara, 0x5ba735a6%N); (lynix, 0x3ef9d843%N); (fox, 0x048fff90%N)] = [true; true; true].
Proof. vm_compute. reflexivity. Qed.
Example test_FNV1a64 : map (fun '(s, h) => TestHash FNV1a64_cstr FNV1a64_view FNV1a64_bytes s h) [(nazara, 0xa00fb3557d90f6e6%N); (lynix, 0x4d2631a6429ff643%N); (fox, 0xf3f9b7f5e7e47110%N)] = [true; true; true].
Proof. vm_compute. reflexivity. Qed.

(** ** EndiannessTest, on hosts of both kinds *)
Definition samples : list (ity * Z) := [(u16, 0xABCD); (u32, 0xABCDEF01); (u64, 0xABCDEF0102030405)].
Definition kept : list Z := [0xABCD; 0xABCDEF01; 0xABCDEF0102030405]. Definition swapped : list Z := [0xCDAB; 0x01EFCDAB; 0x0504030201EFCDAB].
Example test_Endianness : forall little,
  map (fun f => map (fun '(t, v) => f little t v) samples) [HostToBigEndian; BigEndianToHost; HostToLittleEndian; LittleEndianToHost] =
  if little then [swapped; swapped; kept; kept] else [kept; kept; swapped; swapped].
Proof. intros [|]; vm_compute; reflexivity. Qed.

(** ** AlgorithmTests *)
Example test_SafeCast : forall debug,
  (safe_cast_float debug Rvalue 53 u64 (Fin 3), SafeCast debug Rvalue (TArith (AInt i32)) (TArith (AInt u64)) (tmax i32), SafeCast debug Rvalue (TArith (AInt u64)) (TArith (AInt i32)) 42,
   SafeCaster debug Rvalue (TArith (AInt u64)) (TArith (AInt i32)) 42) = (Done 3, Done 2147483647, Done 42, Done 42).
Proof. intros [|]; vm_compute; reflexivity. Qed.
Example test_IntegerToPointer : forall debug, (i <- PointerToInteger debug u64 0x7fff12345678 ;; IntegerToPointer debug u64 i) = Done 0x7fff12345678.
Proof. intros [|]; vm_compute; reflexivity. Qed.
