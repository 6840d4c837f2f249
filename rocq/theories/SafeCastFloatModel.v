(** Model of SafeCast to floating point types (include/NazaraUtils/Algorithm.inl 232-244), on the formats of FloatModel.v. A type is given by its precision and
    its largest exponent; of float, double and long double the one with more bits of precision is the larger one.
    static_cast between floating point types rounds to nearest, ties to even ([conv.double] with IEC 559). *)
From Coq Require Import SpecFloat.
From Verif Require Import Base FloatModel SafeCastModel.
Open Scope Z_scope.

(** static_cast to the format (prec, emax), from any other *)
Definition convert (prec emax : Z) (x : spec_float) : spec_float :=
  match x with
  | S754_finite s m e => binary_normalize prec emax (if s then Zneg m else Zpos m) e s
  | _ => x
  end.
(** std::numeric_limits<T>::max(), lowest() *)
Definition limit_max (prec emax : Z) : spec_float := S754_finite false (Z.to_pos (2 ^ prec - 1)) (emax - prec).
Definition limit_lowest (prec emax : Z) : spec_float := S754_finite true (Z.to_pos (2 ^ prec - 1)) (emax - prec).

(** From a floating point type: 234-243. For lvalues From is a reference type, and nothing is checked. *)
Definition safe_cast_fp (debug : bool) (c : category) (from to : Z * Z) (v : spec_float) : outcome spec_float :=
  let value_type := if fst from >? fst to then from else to in   (* MaxValueType and MinValueType *)
  let cast := convert (fst value_type) (snd value_type) in
  (if debug && by_value c then
     assert (SFleb (cast v) (cast (limit_max (fst to) (snd to)))) ;;;
     assert (SFleb (cast (limit_lowest (fst to) (snd to))) (cast v))
   else Done tt) ;;;
  Done (convert (fst to) (snd to) v).

(** From an integral type: no check. *)
Definition safe_cast_int_fp (debug : bool) (c : category) (to : Z * Z) (n : Z) : outcome spec_float := Done (of_Z (fst to) (snd to) n).
