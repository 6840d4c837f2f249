(** Model of Constants.hpp (17-93) and Constants.inl. *)
From Verif Require Import Base CInt FloatModel.
Open Scope Z_scope.

(** A literal without suffix, n / 10^k: the nearest double (ties to even); [T(...)] converts it. *)
Definition of_ratio (prec emax : Z) (n d : positive) : spec_float :=
  let '(q, e, l) := SFdiv_core_binary prec emax (Zpos n) 0 (Zpos d) 0 in binary_round_aux prec emax false q e l.
Definition convert (prec emax : Z) (x : spec_float) : spec_float :=
  match x with S754_finite s m e => binary_normalize prec emax (cond_Zopp s (Zpos m)) e s | _ => x end.
Definition literal (n : positive) : spec_float := of_ratio 53 1024 n (10 ^ 31).

Section T.
Variables prec emax : Z.
(** 45-79 *)
Definition HalfPi := convert prec emax (literal 15707963267948966192313216916398).
Definition Pi := convert prec emax (literal 31415926535897932384626433832795).
Definition Sqrt2 := convert prec emax (literal 14142135623730950488016887242097).
Definition Sqrt3 := convert prec emax (literal 17320508075688772935274463415059).
Definition Sqrt5 := convert prec emax (literal 22360679774997896964091736687313).
Definition Tau := convert prec emax (literal 62831853071795864769252867665590).
(** 24-42: std::numeric_limits of a floating point type; min() is the smallest positive normal number *)
Definition FloatInfinity : spec_float := S754_infinity false.
Definition FloatNaN : spec_float := S754_nan.
Definition FloatMaxValue : spec_float := S754_finite false (Z.to_pos (2 ^ prec - 1)) (emax - prec).
Definition FloatMinValue : spec_float := S754_finite false (Z.to_pos (2 ^ (prec - 1))) (emin prec emax).
End T.

(** 17, and 30-38 for integers *)
Definition BitCount (size : Z) : Z := 8 * size.
Definition MaxValue (t : ity) : Z := tmax t.
Definition MinValue (t : ity) : Z := tmin t.
