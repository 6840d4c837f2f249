(** Values of floating point numbers. *)
From Coq Require Export SpecFloat ZArith.
Open Scope Z_scope.

Section Format.
Variables prec emax : Z.
(** Every finite number is a multiple of the smallest positive one, 2^emin; the value of a number is the integer factor. The values of the infinities are
    those of plus and minus 2^emax, beyond all finite ones. *)
Definition top : Z := 2 ^ (emax - emin prec emax).
Definition key (x : spec_float) : Z :=
  match x with
  | S754_zero _ => 0
  | S754_infinity s => if s then - top else top
  | S754_nan => 0
  | S754_finite s m e => let a := Zpos m * 2 ^ (e - emin prec emax) in if s then - a else a
  end.
End Format.
