(** Model of the functions of MathUtils.inl on floating point types: IEEE 754 binary formats with [prec] bits of mantissa and infinities at exponent
    [emax] (24 and 128 for float, 53 and 1024 for double, 64 and 16384 for the x87 long double), rounding to nearest, ties to even. The arithmetic is that
    of Coq's standard library (Floats/SpecFloat.v). All NaN are one; -ffast-math, excess precision and contraction of x * y + z are not modelled. *)
From Coq Require Export SpecFloat.
From Verif Require Export Base.
Open Scope Z_scope.

Section Float.
Variables prec emax : Z.
Local Notation add := (SFadd prec emax).
Local Notation sub := (SFsub prec emax).
Local Notation mul := (SFmul prec emax).
Local Notation quo := (SFdiv prec emax).

(** std::isnan, std::isinf, std::isfinite *)
Definition std_isnan (x : spec_float) : bool := match x with S754_nan => true | _ => false end.
Definition std_isinf (x : spec_float) : bool := match x with S754_infinity _ => true | _ => false end.
Definition std_isfinite (x : spec_float) : bool := match x with S754_zero _ | S754_finite _ _ _ => true | _ => false end.

(** std::min, std::max *)
Definition std_min (a b : spec_float) : spec_float := if SFltb b a then b else a.
Definition std_max (a b : spec_float) : spec_float := if SFltb a b then b else a.

Definition Infinity : spec_float := S754_infinity false.

(** IsFinite 739-749, IsInfinity 759-769, IsNaN 779-789: in a constant expression, and else *)
Definition IsFinite (ce : bool) (value : spec_float) : bool :=
  if ce then SFeqb value value && SFltb value Infinity && SFltb (SFopp Infinity) value else std_isfinite value.
Definition IsInfinity (ce : bool) (value : spec_float) : bool :=
  if ce then SFeqb value Infinity || SFeqb value (SFopp Infinity) else std_isinf value.
Definition IsNaN (ce : bool) (value : spec_float) : bool := if ce then negb (SFeqb value value) else std_isnan value.

(** Detail::NumberEquals 110-124 *)
Definition FloatEquals (ce : bool) (a b maxDifference : spec_float) : bool :=
  if ce then
    let '(a, b) := if SFltb a b then (b, a) else (a, b) in
    SFleb (sub a b) maxDifference
  else SFleb (SFabs (sub a b)) maxDifference.

(** Approach 626-634 *)
Definition FloatApproach (value objective increment : spec_float) : spec_float :=
  if SFltb value objective then std_min (add value increment) objective
  else if SFltb objective value then std_max (sub value increment) objective
  else value.

(** Clamp 646-649 *)
Definition FloatClamp (value min max : spec_float) : spec_float := std_max (std_min value max) min.

(** Lerp 817-820, the factor having the type of the values *)
Definition FloatLerp (from to interpolation : spec_float) : spec_float := add from (mul interpolation (sub to from)).

(** An integer (constant, or converted from long long) *)
Definition of_Z (n : Z) : spec_float := binary_normalize prec emax n 0 false.

(** DegreeToRadian 659-662, RadianToDegree 918-921, for a value of Pi *)
Definition DegreeToRadian (pi degrees : spec_float) : spec_float := mul degrees (quo pi (of_Z 180)).
Definition RadianToDegree (pi radians : spec_float) : spec_float := mul radians (quo (of_Z 180) pi).

(** static_cast<long long>: towards zero; undefined when it does not fit *)
Definition to_long_long (x : spec_float) : outcome Z :=
  match x with
  | S754_zero _ => Done 0
  | S754_finite s m e =>
    let a := if 0 <=? e then Zpos m * 2 ^ e else Zpos m / 2 ^ (- e) in
    let v := if s : bool then - a else a in
    require ((- 2 ^ 63 <=? v) && (v <? 2 ^ 63)) ;;; Done v
  | _ => Fault FUB
  end.

(** std::fmod: exact, with the sign of x *)
Definition std_fmod (x y : spec_float) : spec_float :=
  match x, y with
  | S754_nan, _ | _, S754_nan | S754_infinity _, _ | _, S754_zero _ => S754_nan
  | S754_zero _, _ | _, S754_infinity _ => x
  | S754_finite s mx ex, S754_finite _ my ey =>
    let e := Z.min ex ey in
    let r := (Zpos mx * 2 ^ (ex - e)) mod (Zpos my * 2 ^ (ey - e)) in
    binary_normalize prec emax (if s : bool then - r else r) e s
  end.

(** std::fma: the exact product plus z, rounded once *)
Definition std_fma (x y z : spec_float) : spec_float :=
  match x, y with
  | S754_finite sx mx ex, S754_finite sy my ey =>
    match z with
    | S754_finite sz mz ez =>
      let e := Z.min (ex + ey) ez in
      let p := Zpos (mx * my) * 2 ^ (ex + ey - e) in
      let a := Zpos mz * 2 ^ (ez - e) in
      binary_normalize prec emax ((if xorb sx sy then - p else p) + (if sz : bool then - a else a)) e false
    | S754_zero _ => mul x y
    | _ => z
    end
  | _, _ => add (mul x y) z
  end.

(** MultiplyAdd 851-879: std::fma where FP_FAST_FMA (FP_FAST_FMAF, FP_FAST_FMAL) is defined *)
Definition FloatMultiplyAdd (fast : bool) (x y z : spec_float) : spec_float := if fast then std_fma x y z else add (mul x y) z.

(** Mod 823-838 *)
Definition FloatMod (ce : bool) (x y : spec_float) : outcome spec_float :=
  if ce then q <- to_long_long (quo x y) ;; Done (sub x (mul (of_Z q) y)) else Done (std_fmod x y).
End Float.
