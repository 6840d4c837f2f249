(** Model of BitCast (Algorithm.inl 97-114), AccessByOffset (68-95) and NazaraOffsetOf (OffsetOf.hpp 15-32).
    Objects of trivially copyable types are sequences of bytes; [little] is the byte order of the host. *)
From Verif Require Import Base CInt FloatSpec.
Open Scope Z_scope.

(** ** Types and values *)
Inductive oty := OInt (t : ity) | OBool | OPointer | OFloat | ODouble | OBytes (n : nat).
(** Numbers carry no NaN, whose sign and payload are kept apart. *)
Inductive value := VInt (z : Z) | VBool (b : bool) | VPointer (a : Z) | VNumber (x : spec_float) | VNan (sign : bool) (payload : Z) | VBytes (l : list Z).
Definition size_of (t : oty) : nat :=
  match t with OInt t => Z.to_nat (wid t / 8) | OBool => 1 | OPointer => 8 | OFloat => 4 | ODouble => 8 | OBytes n => n end.

(** *** Integers as bytes *)
Fixpoint le_bytes (n : nat) (z : Z) : list Z := match n with O => [] | S n => z mod 256 :: le_bytes n (z / 256) end.
Fixpoint of_le (l : list Z) : Z := match l with [] => 0 | b :: l => b + 256 * of_le l end.
Definition ordered (little : bool) (l : list Z) : list Z := if little then l else rev l.
Definition to_bytes (little : bool) (n : nat) (z : Z) : list Z := ordered little (le_bytes n z).
Definition of_bytes (little : bool) (l : list Z) : Z := of_le (ordered little l).

(** *** IEEE 754 interchange formats: sign, exponent (biased), significand without its leading bit *)
Section Format.
  Variables prec emax : Z.
  Definition sign_bit : Z := 2 * emax * 2 ^ (prec - 1).
  Definition exponent_max : Z := 2 * emax - 1.
  Definition float_bits (v : value) : Z :=
    match v with
    | VNumber (S754_zero s) => if s then sign_bit else 0
    | VNumber (S754_infinity s) => (if s then sign_bit else 0) + exponent_max * 2 ^ (prec - 1)
    | VNumber (S754_finite s m e) =>
      let subnormal := Zpos m <? 2 ^ (prec - 1) in
      let exponent := if subnormal then 0 else e - emin prec emax + 1 in
      let significand := if subnormal then Zpos m else Zpos m - 2 ^ (prec - 1) in
      (if s then sign_bit else 0) + exponent * 2 ^ (prec - 1) + significand
    | VNan s p => (if s then sign_bit else 0) + exponent_max * 2 ^ (prec - 1) + p
    | _ => 0
    end.
  Definition finite (s : bool) (m e : Z) : spec_float := match m with Zpos m => S754_finite s m e | _ => S754_zero s end.
  Definition float_of_bits (z : Z) : value :=
    let s := sign_bit <=? z in
    let z := z mod sign_bit in
    let exponent := z / 2 ^ (prec - 1) in
    let significand := z mod 2 ^ (prec - 1) in
    if exponent =? exponent_max then (if significand =? 0 then VNumber (S754_infinity s) else VNan s significand)
    else if exponent =? 0 then VNumber (finite s significand (emin prec emax))
    else VNumber (finite s (significand + 2 ^ (prec - 1)) (exponent - 1 + emin prec emax)).
End Format.

(** *** Object representation *)
Definition object_bytes (little : bool) (t : oty) (v : value) : list Z :=
  match t, v with
  | OInt t, VInt z => to_bytes little (Z.to_nat (wid t / 8)) (z mod 2 ^ wid t)
  | OBool, VBool b => [if b then 1 else 0]
  | OPointer, VPointer a => to_bytes little 8 a
  | OFloat, v => to_bytes little 4 (float_bits 24 128 v)
  | ODouble, v => to_bytes little 8 (float_bits 53 1024 v)
  | OBytes _, VBytes l => l
  | _, _ => []
  end.
(** The value with a given representation; for bool there are two, and the others are undefined. *)
Definition object_value (little : bool) (t : oty) (l : list Z) : outcome value :=
  match t with
  | OInt t => Done (VInt (cast t (of_bytes little l)))
  | OBool => match l with [0] => Done (VBool false) | [1] => Done (VBool true) | _ => Fault FUB end
  | OPointer => Done (VPointer (of_bytes little l))
  | OFloat => Done (float_of_bits 24 128 (of_bytes little l))
  | ODouble => Done (float_of_bits 53 1024 (of_bytes little l))
  | OBytes _ => Done (VBytes l)
  end.

(** ** BitCast *)
(** 104-107: std::bit_cast and __builtin_bit_cast; the static_assert on the sizes is a condition of the theorems. *)
Definition BitCast (little : bool) (From To : oty) (v : value) : outcome value := object_value little To (object_bytes little From v).
(** 109-112: std::memcpy into a default initialised object, whose bytes are indeterminate. *)
Fixpoint all_known (l : list (option Z)) : outcome (list Z) :=
  match l with [] => Done [] | Some b :: l => r <- all_known l ;; Done (b :: r) | None :: _ => Fault FUB end.
Definition BitCast_memcpy (little : bool) (From To : oty) (v : value) : outcome value :=
  let source := object_bytes little From v in
  result <- foreach (range 0 (size_of To)) (fun r i => b <- vget source i ;; vset r i (Some b)) (repeat None (size_of To)) ;;
  l <- all_known result ;; object_value little To l.

(** ** NazaraOffsetOf and AccessByOffset *)
(** A standard layout struct: sizes and alignments of its members, in order. *)
Record member := mkMember { m_size : Z; m_align : Z }.
Definition round_up (z a : Z) : Z := (z + a - 1) / a * a.
Fixpoint offsets (at_ : Z) (l : list member) : list Z :=
  match l with [] => [] | m :: l => let o := round_up at_ (m_align m) in o :: offsets (o + m_size m) l end.
(** OffsetOf.hpp 25: the address of the member in an object at the null address. *)
Definition OffsetOf (l : list member) (i : nat) : outcome Z := o <- vget (offsets 0 l) i ;; Done (0 + o).
(** Algorithm.inl 72-73, 89-90: static_cast<UInt8*>(basePtr) + offset. *)
Definition AccessByOffset (base offset : Z) : Z := base + offset.
(** Memory and accesses of [n] bytes; a misaligned access is undefined. *)
Definition memory := Z -> Z.
Definition load (m : memory) (a align : Z) (n : nat) : outcome (list Z) :=
  require (a mod align =? 0) ;;; Done (map (fun i => m (a + Z.of_nat i)) (seq 0 n)).
Definition store (m : memory) (a align : Z) (l : list Z) : outcome memory :=
  require (a mod align =? 0) ;;;
  Done (fun x => if (a <=? x) && (x <? a + Z.of_nat (length l)) then nth (Z.to_nat (x - a)) l 0 else m x).
