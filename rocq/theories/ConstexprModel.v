(** * What is declared [constexpr] and what a constant expression may contain

    Almost everything in NazaraUtils is declared [constexpr].  Two questions decide whether such a
    function can really be evaluated at compile time: are the types of the objects it creates
    literal types, and is every step of the evaluation permitted in a constant expression?

    Both depend on the language standard, and the answers differ between the C++17 the library
    supports and the C++20 and C++23 it also supports (ConstantEvaluated.hpp:13-33).

    Sources: ConstantEvaluated.hpp:13-33, FixedVector.hpp:28-134, FixedVector.inl:15-45 and 325-341,
    Bitset.hpp:22-225, Bitset.inl:53-123, 355-398, 770-779 and 979-1003, Result.hpp:32-183,
    Result.inl:70-88, 262-270 and 296-311, EnumArray.hpp:20-52, MovableValue.hpp:14-67,
    MovableValue.inl:72-78, Flags.hpp:50-140, Flags.inl:66-114 and 298-337,
    MathUtils.inl:108-143, 182-291 and 849-879, MemoryHelper.inl:24-42.

    Simplifications.
    - Rules are those of the published standards with the defect reports against C++20 applied
      ([std::optional] and [std::variant] constexpr as of P2231).  Compilers that fold
      [std::strlen] or [std::fma] anyway accept more.
    - [if NAZARA_IS_RUNTIME_EVAL()] is taken to detect constant evaluation (ConstantEvaluated.hpp
      has a last branch for compilers that cannot; it is not modelled).
    - Volatile members, virtual bases and coroutines do not occur.
    - Implementation limits (evaluation steps, and memory allocated at compile time that outlives
      the evaluation) are left out: a constant expression here is one that is evaluated inside a
      larger one, for example in the body of a [constexpr] function. *)

From Coq Require Import List Bool ZArith String Ascii.
Import ListNotations.

Inductive std := Cpp17 | Cpp20 | Cpp23.

Definition at_least_20 (s : std) : bool :=
  match s with Cpp17 => false | _ => true end.

(** ** Literal types *)

(** A destructor is implicit or defaulted in the class, declared [constexpr], or provided without
    [constexpr]. *)
Inductive dtor := Implicit | ConstexprDtor | PlainDtor.

(** [Class d c ms]: a class with destructor [d], at least one constexpr constructor that is not a
    copy or move constructor (or being an aggregate) iff [c], and members and bases [ms].
    [Vector]: [std::vector] or [std::string], whose destructor is constexpr from C++20.
    [Choice ts]: [std::optional] or [std::variant]: storage for one of [ts]. *)
Inductive ty :=
| Scalar
| Class (d : dtor) (c : bool) (ms : list ty)
| Array (t : ty)
| Vector (t : ty)
| Choice (ts : list ty).

(** The destructor is trivial. *)
Fixpoint trivial (t : ty) : bool :=
  match t with
  | Scalar => true
  | Class Implicit _ ms => forallb trivial ms
  | Class _ _ _ => false
  | Array t => trivial t
  | Vector _ => false
  | Choice ts => forallb trivial ts
  end.

(** Destroying an object is permitted in a constant expression.  In C++17 only trivial destructors
    are. *)
Fixpoint ends (s : std) (t : ty) : bool :=
  match t with
  | Scalar => true
  | Class d _ ms =>
      match d with
      | Implicit => forallb (ends s) ms
      | ConstexprDtor => at_least_20 s && forallb (ends s) ms
      | PlainDtor => false
      end
  | Array t => ends s t
  | Vector t => at_least_20 s
  | Choice ts => forallb (ends s) ts
  end.

(** [basic.types.general]: literal types.  The storage of [std::optional] and [std::variant] is a
    union with an empty alternative, so what it may hold need not be literal. *)
Fixpoint literal (s : std) (t : ty) : bool :=
  match t with
  | Scalar => true
  | Class d c ms => ends s t && c && forallb (literal s) ms
  | Array t => literal s t
  | Vector _ => ends s t
  | Choice _ => ends s t
  end.

(** The classes, as declared. *)

(** FixedVector.hpp:28-134: [~FixedVector()] is neither defaulted nor constexpr.  The base holds
    the fallback container (FixedVector.inl:95, nothing at 101-160). *)
Definition fixed_vector (fallback : option ty) : ty :=
  Class PlainDtor true
    [ Class Implicit true (match fallback with Some f => [f] | None => [] end);
      Scalar; Array Scalar ].

(** Bitset.hpp:22-144. *)
Definition bitset (container : ty) : ty := Class Implicit true [container; Scalar].

(** Bitset.hpp:146-150: blocks are scalars, the fallback of [HybridVector] is a [std::vector]. *)
Definition dynamic_bitset : ty := bitset (Vector Scalar).
Definition fixed_bitset : ty := bitset (fixed_vector None).
Definition hybrid_bitset : ty := bitset (fixed_vector (Some (Vector Scalar))).

(** Bitset.hpp:152-186: the only constructor that is not a copy constructor is not constexpr. *)
Definition bit_reference : ty := Class Implicit false [Scalar; Scalar].

(** Bitset.hpp:188-213. *)
Definition bit_iterator : ty := Class Implicit true [Scalar; Scalar].

(** Result.hpp:55-127 and 129-183. *)
Definition result (v e : ty) : ty := Class Implicit true [Choice [v; e]].
Definition result_void (e : ty) : ty := Class Implicit true [Choice [e]].

(** EnumArray.hpp:20-52: an aggregate whose base is [std::array]. *)
Definition enum_array (v : ty) : ty := Class Implicit true [Array v].

(** MovableValue.hpp:14-38 and 40-62. *)
Definition movable_literal : ty := Class Implicit true [Scalar].
Definition movable_value (t : ty) : ty := Class Implicit true [t].

(** Flags.hpp:50-103 and 105-140. *)
Definition flags : ty := Class Implicit true [Scalar].
Definition flags_iterator : ty := Class Implicit true [Scalar].

(** ** Steps of an evaluation *)

Inductive step :=
| Ordinary                   (* what is permitted in every standard *)
| Creates (t : ty)           (* an object of this type is created and destroyed *)
| StdSwap                    (* std::swap: constexpr from C++20 *)
| Emplaces                   (* optional::emplace and variant::emplace: from C++20 *)
| NotConstexpr               (* a function that is not declared constexpr is called *)
| FromVoidPointer            (* static_cast from const void* to const UInt8* *)
| Reinterprets               (* reinterpret_cast *)
| NewInPlace                 (* a placement new expression *)
| CastsBits (has : bool)     (* BitCast; whether NAZARA_HAS_CONSTEXPR_BITCAST is defined *)
| Fails                      (* an assertion fails *)
| Throws.

Definition permitted (s : std) (x : step) : bool :=
  match x with
  | Ordinary => true
  | Creates t => literal s t
  | StdSwap | Emplaces => at_least_20 s
  | CastsBits has => has
  | NotConstexpr | FromVoidPointer | Reinterprets | NewInPlace | Fails | Throws => false
  end.

Definition constant (s : std) (l : list step) : bool := forallb (permitted s) l.

(** MathUtils.inl:126-142 (and 116-123 for floating point values during constant evaluation). *)
Definition number_equals (a b : Z) : list step :=
  (if (a <? b)%Z then [StdSwap] else []) ++ [Ordinary].

(** Bitset.inl:68-93: [Bitset(const char* bits, std::size_t bitCount)]. *)
Definition parse_char (c : ascii) : step :=
  if Ascii.eqb c "1" then Ordinary
  else if Ascii.eqb c "0" then Ordinary
  else Fails.

Fixpoint parse_chars (text : string) : list step :=
  match text with
  | EmptyString => []
  | String c rest => parse_char c :: parse_chars rest
  end.

Definition parse (container : ty) (text : string) : list step :=
  Creates (bitset container) :: parse_chars text.

(** Bitset.inl:100-104 and 112-116: from [std::string_view] and from [std::string]; the string
    itself is created by the caller. *)
Definition parse_view := parse.
Definition parse_string (container : ty) (text : string) : list step :=
  Creates (Vector Scalar) :: parse container text.

(** Bitset.inl:54-57: [std::strlen] is not constexpr. *)
Definition parse_c_string (container : ty) (text : string) : list step :=
  NotConstexpr :: parse container text.

(** Bitset.inl:772-779 through 980-987: assignment from text builds a bitset and swaps. *)
Definition swap_bitsets : list step := [StdSwap; StdSwap].
Definition assign_view (container : ty) (text : string) : list step :=
  parse container text ++ swap_bitsets.

(** Bitset.inl:365-398. *)
Definition write (valid : bool) (container : ty) : list step :=
  (if valid then [] else [Fails]) ++ [FromVoidPointer; Creates (bitset container)].

(** Bitset.inl:945-949 and 955-959: the index operator on a bitset that is not const, which calls
    the constructor of [Bit], and on a const one, which calls [Test] and its range assertion. *)
Definition index_mutable (container : ty) : list step :=
  [Creates (bitset container); NotConstexpr; Creates bit_reference].
Definition index_const (container : ty) (size i : nat) : list step :=
  Creates (bitset container) :: (if Nat.ltb i size then [Ordinary] else [Fails]).

(** MovableValue.inl:72-78 and 138-144: move assignment. *)
Definition movable_literal_assign : list step := [Creates movable_literal; StdSwap].
Definition movable_value_assign (t : ty) : list step := [Creates (movable_value t); Ordinary].

(** Result.inl:70-88, 296-311: from a result of other types; with a value
    type both branches emplace, without one only that of an error does. *)
Definition convert_result (v e v2 e2 : ty) : list step :=
  [Creates (result v2 e2); Creates (result v e); Emplaces].
Definition convert_result_void (e e2 : ty) (ok : bool) : list step :=
  [Creates (result_void e2); Creates (result_void e)] ++ (if ok then [] else [Emplaces]).

(** Result.inl:131-148 and 260-270: the value of a result. *)
Definition result_value (v e : ty) (ok : bool) : list step :=
  Creates (result v e) :: (if ok then [Ordinary] else [Throws]).

(** MathUtils.inl:182-291: [ByteSwap] by kind of type. *)
Inductive arithmetic := Byte | Integer | FloatOrDouble | LongDouble.

Definition byte_swap (has_bit_cast : bool) (k : arithmetic) : list step :=
  match k with
  | Byte | Integer => [Ordinary]
  | FloatOrDouble => [CastsBits has_bit_cast; Ordinary; CastsBits has_bit_cast]
  | LongDouble => [NotConstexpr]
  end.

(** Endianness.inl:9-17: [BigEndianToHost] swaps on a little-endian host and
    [LittleEndianToHost] on a big-endian one. *)
Definition big_endian_to_host (little has_bit_cast : bool) (k : arithmetic) : list step :=
  if little then byte_swap has_bit_cast k else [Ordinary].
Definition little_endian_to_host (little has_bit_cast : bool) (k : arithmetic) : list step :=
  if little then [Ordinary] else byte_swap has_bit_cast k.

(** MathUtils.inl:849-879: [MultiplyAdd] when the implementation announces a fast fused operation
    for the type. *)
Definition multiply_add (fast : bool) : list step :=
  if fast then [NotConstexpr] else [Ordinary].

(** MemoryHelper.inl:24-42. *)
Definition placement_new : list step := [NewInPlace].
Definition placement_destroy (s : std) (t : ty) (null : bool) : list step :=
  if null then [Ordinary] else [if ends s t then Ordinary else NotConstexpr].

(** Flags.inl:66-70 and 298-337: [Count], [size], [++] and [*] are not declared constexpr; the
    loop is a range-based for over a set of flags (Flags.inl:98-108). *)
Definition flags_count : list step := [Creates flags; NotConstexpr].

Fixpoint flags_loop (fuel : nat) (v : N) : list step :=
  match fuel with
  | O => []
  | S fuel =>
      if (v =? 0)%N then [Ordinary]
      else NotConstexpr :: NotConstexpr :: flags_loop fuel (N.land v (v - 1))
  end.

Definition flags_for (v : N) : list step :=
  [Creates flags; Creates flags_iterator; Creates flags_iterator]
  ++ flags_loop (S (N.size_nat v)) v.

(** FixedVector.inl:325-341: every access to an element of the array part. *)
Definition fixed_vector_element : list step := [Reinterprets].
