(** Overload resolution ([over.match]) on the overload sets of the library: which function a call selects, from the types of its arguments.
    Types: arithmetic types, pointers, arrays, std::nullptr_t, classes by number. Conversions: identity, qualification, promotion, conversion,
    user-defined. Not modelled: volatile, enumerations, functions, multi-level pointers with inner qualification, lists in braces, concepts,
    conversion of pointers to members; of the tie breakers only templates and their partial ordering (given as a number). *)
From Verif Require Import Base.

Inductive arith := ABool | AChar | ASChar | AUChar | AShort | AUShort | AInt | AUInt | ALong | AULong | ALLong | AULLong | AFloat | ADouble | ALDouble.
Inductive ty := Arith (a : arith) | Ptr (const : bool) (t : ty) | Arr (t : ty) (n : nat) | NullptrT | Void | Class (c : nat).
Definition arith_code (a : arith) : nat :=
  match a with
  | ABool => 0 | AChar => 1 | ASChar => 2 | AUChar => 3 | AShort => 4 | AUShort => 5 | AInt => 6 | AUInt => 7
  | ALong => 8 | AULong => 9 | ALLong => 10 | AULLong => 11 | AFloat => 12 | ADouble => 13 | ALDouble => 14
  end.
Fixpoint ty_eqb (t u : ty) : bool :=
  match t, u with
  | Arith a, Arith b => arith_code a =? arith_code b
  | Ptr c t, Ptr d u => Bool.eqb c d && ty_eqb t u
  | Arr t n, Arr u m => ty_eqb t u && (n =? m)
  | NullptrT, NullptrT | Void, Void => true
  | Class c, Class d => c =? d
  | _, _ => false
  end.

(** An argument: its type without const, const, lvalue or not, and whether it is the literal 0. A string literal is a const lvalue of array type. *)
Record expr := Expr { e_ty : ty; e_const : bool; e_lvalue : bool; e_zero : bool }.
(** A parameter: by value, T& / const T&, T&&. *)
Inductive param := ByVal (t : ty) | LRef (const : bool) (t : ty) | RRef (t : ty).

(** [over.ics.scs]: the rank of a standard conversion sequence. [RBool] is the conversion of a pointer to bool. *)
Inductive rank := RExact | RPromotion | RConversion | RBool.
Definition rank_code (r : rank) : nat := match r with RExact => 0 | RPromotion => 1 | RConversion => 2 | RBool => 3 end.
(** How a reference is bound: to T&& or not, const or not. *)
Definition binding := option (bool * bool)%type.
(** [identity]: the canonical sequence is empty once lvalue transformations are left out. A user-defined conversion is known by its target. *)
Inductive ics := NoConversion | Standard (r : rank) (identity : bool) (b : binding) | User (target : ty) (b : binding).

Section Resolution.
  (** Proper base classes, and implicit user-defined conversions from a type to a type. *)
  Variable derived : nat -> nat -> bool.
  Variable converts : ty -> ty -> bool.

  (** [conv.array] *)
  Definition decay (e : expr) : ty := match e_ty e with Arr t n => Ptr (e_const e) t | t => t end.
  (** [conv.prom] for int of 32 bits *)
  Definition promotes (a b : arith) : bool :=
    match a, b with
    | (ABool | AChar | ASChar | AUChar | AShort | AUShort), AInt => true
    | AFloat, ADouble => true
    | _, _ => false
    end.
  Definition set_binding (b : binding) (i : ics) : ics := match i with Standard r id _ => Standard r id b | User t _ => User t b | NoConversion => NoConversion end.
  Definition user (t u : ty) : ics := if converts t u then User u None else NoConversion.
  (** Initialisation of an object of type [u]. *)
  Definition to_value (e : expr) (u : ty) : ics :=
    let t := decay e in
    if ty_eqb t u then Standard RExact true None else
    match t, u with
    | Arith a, Arith b => Standard (if promotes a b then RPromotion else RConversion) false None
    | Arith _, Ptr _ _ => if e_zero e then Standard RConversion false None else user t u
    | NullptrT, Ptr _ _ => Standard RConversion false None
    | Ptr _ _, Arith ABool => Standard RBool false None
    | Ptr c x, Ptr d y =>
      if c && negb d then user t u
      else if ty_eqb x y then Standard RExact false None
      else if match x, y with _, Void => true | Class a, Class b => derived a b | _, _ => false end then Standard RConversion false None
      else user t u
    | Class a, Class b => if derived a b then Standard RConversion false None else user t u
    | _, _ => user t u
    end.
  (** Classes are reference-compatible with their bases. *)
  Definition same_or_base (t u : ty) : option rank :=
    if ty_eqb t u then Some RExact else match t, u with Class a, Class b => if derived a b then Some RConversion else None | _, _ => None end.
  (** [over.ics.ref]: a reference binds directly, or to a temporary if it is const or T&&. *)
  Definition to_param (e : expr) (p : param) : ics :=
    match p with
    | ByVal u => to_value e u
    | LRef c u =>
      match same_or_base (e_ty e) u with
      | Some r => if (c || negb (e_const e)) && (c || e_lvalue e) then Standard r (match r with RExact => true | _ => false end) (Some (false, c)) else NoConversion
      | None => if c then set_binding (Some (false, true)) (to_value e u) else NoConversion
      end
    | RRef u =>
      match same_or_base (e_ty e) u with
      | Some r => if e_lvalue e || e_const e then NoConversion else Standard r (match r with RExact => true | _ => false end) (Some (true, false))
      | None => set_binding (Some (true, false)) (to_value e u)
      end
    end.

  (** [over.ics.rank] 3.2.3, 3.2.6: T&& over T&, less const over more. *)
  Definition binds_better (x y : binding) : bool :=
    match x, y with
    | Some (true, _), Some (false, _) => true
    | Some (false, false), Some (false, true) => true
    | _, _ => false
    end.
  Definition better (x y : ics) : bool :=
    match x, y with
    | Standard _ _ _, User _ _ => true
    | Standard r i b, Standard s j c => (rank_code r <? rank_code s) || ((rank_code r =? rank_code s) && ((i && negb j) || (Bool.eqb i j && binds_better b c)))
    | User t b, User u c => ty_eqb t u && binds_better b c
    | _, _ => false
    end.

  (** A candidate: its parameters for the given arguments (None: too many, too few, or deduction failed), and for a template its place in the partial
      ordering of templates, higher meaning more specialised. *)
  Record candidate := Candidate { parameters : list expr -> option (list param); template : option nat }.
  (** Parameters of which the last have default arguments. *)
  Definition fn (least : nat) (ps : list param) : candidate :=
    Candidate (fun args => if (least <=? length args) && (length args <=? length ps) then Some (firstn (length args) ps) else None) None.
  Definition viable (is : list ics) : bool := forallb (fun i => match i with NoConversion => false | _ => true end) is.
  Definition sequences (c : candidate) (args : list expr) : option (list ics) :=
    match parameters c args with
    | None => None
    | Some ps => let is := map (fun '(e, p) => to_param e p) (combine args ps) in if viable is then Some is else None
    end.
  (** [over.match.best] *)
  Fixpoint any_better (xs ys : list ics) : bool := match xs, ys with x :: xs, y :: ys => better x y || any_better xs ys | _, _ => false end.
  Definition tie (f g : candidate) : bool :=
    match template f, template g with
    | None, Some _ => true
    | Some a, Some b => b <? a
    | _, _ => false
    end.
  Definition beats (f g : candidate) (xs ys : list ics) : bool := negb (any_better ys xs) && (any_better xs ys || tie f g).

  Inductive resolution := Chosen (i : nat) | Ambiguous | NoMatch.
  Definition resolve (cs : list candidate) (args : list expr) : resolution :=
    let vs := concat (map (fun '(i, c) => match sequences c args with Some is => [(i, c, is)] | None => [] end) (combine (range 0 (length cs)) cs)) in
    match vs with
    | [] => NoMatch
    | _ =>
      match filter (fun '(i, c, is) => forallb (fun '(j, d, js) => (i =? j) || beats c d is js) vs) vs with
      | (i, _, _) :: _ => Chosen i
      | [] => Ambiguous
      end
    end.
End Resolution.

(** ** The overload sets. [sz] is the type std::size_t stands for, [u8] UInt8 (unsigned char). *)
Definition nobase (a b : nat) : bool := false.
Definition noconv (t u : ty) : bool := false.
Section Library.
  Variable sz : arith.
  Definition Size := Arith sz.
  Definition TBool := Arith ABool.
  Definition CharPtr := Ptr true (Arith AChar).

  (** Bitset.hpp 70-71: Reset(), Reset(std::size_t); 75-76: Set(bool = true), Set(std::size_t, bool = true). *)
  Definition Bitset_Reset : list candidate := [fn 0 []; fn 1 [ByVal Size]].
  Definition Bitset_Set : list candidate := [fn 0 [ByVal TBool]; fn 1 [ByVal Size; ByVal TBool]].

  (** Bitset.hpp 33-42. Classes: 0 the Bitset, 1 std::string_view, 2 std::string. *)
  Definition CBitset := Class 0.  Definition CView := Class 1.  Definition CString := Class 2.
  (** Implicit conversions: const char* and std::string to the view, const char* to the string; anything to the Bitset by its constructor template,
      which is not explicit. *)
  Definition text_converts (t u : ty) : bool :=
    match t, u with
    | Ptr _ (Arith AChar), Class 1 | Ptr _ (Arith AChar), Class 2 | Class 2, Class 1 => true
    | _, Class 0 => true
    | _, _ => false
    end.
  (** template<typename T> f(T value): T is the decayed type; a constructor template is not used to take the class itself by value ([class.copy.ctor]). *)
  Definition by_value_template (except : ty -> bool) : candidate :=
    Candidate (fun args => match args with [e] => if except (decay e) then None else Some [ByVal (decay e)] | _ => None end) (Some 0).
  Definition is_class (c : nat) (t : ty) : bool := match t with Class d => c =? d | _ => false end.
  Definition Bitset_constructors : list candidate :=
    [fn 0 []; fn 2 [ByVal Size; ByVal TBool]; fn 1 [ByVal CharPtr]; fn 2 [ByVal CharPtr; ByVal Size]; fn 1 [LRef true CBitset]; fn 1 [LRef true CView]; fn 1 [LRef true CString];
     by_value_template (is_class 0); fn 1 [RRef CBitset]].
  (** Bitset.hpp 104-107 *)
  Definition Bitset_assignments : list candidate := [fn 1 [LRef true CBitset]; fn 1 [LRef true CView]; by_value_template (fun _ => false); fn 1 [RRef CBitset]].
  Definition construct_bitset (args : list expr) : resolution := resolve nobase text_converts Bitset_constructors args.
  Definition assign_bitset (e : expr) : resolution := resolve nobase text_converts Bitset_assignments [e].
  (** Bitset(T value) 120-150 and operator=(T value) 996-1003 compile for these types T, [block] being the size of Block: the value is cast to Block when
      it is not larger, and masked otherwise. Classes are taken not to convert to integers. *)
  Definition value_constructor_compiles (block : nat) (t : ty) : bool :=
    match t with Arith AFloat => 4 <=? block | Arith ADouble => 8 <=? block | Arith ALDouble => 16 <=? block | Arith _ => true | _ => false end.
  (** The call compiles: a function is selected, and its body compiles. The template assignment constructs from its parameter, an lvalue. *)
  Definition construct_compiles (block : nat) (e : expr) : bool :=
    match construct_bitset [e] with Chosen 7 => value_constructor_compiles block (decay e) | Chosen _ => true | _ => false end.
  Definition assign_compiles (block : nat) (e : expr) : bool :=
    match assign_bitset e with Chosen 2 => construct_compiles block (Expr (decay e) false true false) | Chosen _ => true | _ => false end.

  (** SparsePtr.hpp 27-28, for T not const: SparsePtr(void*, int), SparsePtr(void*, std::size_t). *)
  Definition SparsePtr_constructors : list candidate := [fn 2 [ByVal (Ptr false Void); ByVal (Arith AInt)]; fn 2 [ByVal (Ptr false Void); ByVal Size]].
  (** SparsePtr.hpp 54-55: template operator-(U), operator-(const SparsePtr&). Class 0 is SparsePtr<T>, class 1 SparsePtr<const T>; the converting
      constructor takes 0 to 1. [self] is the class of the left operand. *)
  Definition SparsePtr_minus (self : nat) : list candidate := [by_value_template (fun _ => false); fn 1 [LRef true (Class self)]].
  Definition sparse_converts (t u : ty) : bool := match t, u with Class 0, Class 1 => true | _, _ => false end.
  (** The template multiplies its argument with the stride. *)
  Definition minus_compiles (self : nat) (e : expr) : bool :=
    match resolve nobase sparse_converts (SparsePtr_minus self) [e] with Chosen 0 => match decay e with Arith _ => true | _ => false end | Chosen _ => true | _ => false end.

  (** FixedVector.hpp 48-49 with two arguments: FixedVector(size_type, const T&), template FixedVector(InputIt, InputIt). *)
  Definition FixedVector_constructors (T : ty) : list candidate :=
    [fn 1 [ByVal Size; LRef true T];
     Candidate (fun args => match args with [a; b] => if ty_eqb (decay a) (decay b) then Some [ByVal (decay a); ByVal (decay b)] else None | _ => None end) (Some 0)].
  (** Its body needs operator*, which arithmetic types lack (classes are taken as iterators). *)
  Definition is_iterator (t : ty) : bool := match t with Ptr _ Void => false | Ptr _ _ | Class _ => true | _ => false end.
  Inductive vector_made := Sized | FromRange | DoesNotCompile.
  Definition make_vector (converts : ty -> ty -> bool) (T : ty) (a b : expr) : vector_made :=
    match resolve nobase converts (FixedVector_constructors T) [a; b] with
    | Chosen 0 => Sized
    | Chosen _ => if is_iterator (decay a) then FromRange else DoesNotCompile
    | _ => DoesNotCompile
    end.

  (** Hash.hpp 25-28 (FNV1a32, FNV1a64: 36-39, 47-50). *)
  Definition array_template : candidate :=
    Candidate (fun args => match args with [e] => match e_ty e with Arr (Arith AChar) n => Some [LRef true (Arr (Arith AChar) n)] | _ => None end | _ => None end) (Some 0).
  Definition hash_overloads : list candidate := [fn 1 [ByVal CharPtr]; fn 1 [ByVal CView]; fn 2 [ByVal (Ptr true (Arith AUChar)); ByVal Size]; array_template].
  Definition hash_call (args : list expr) : resolution := resolve nobase text_converts hash_overloads args.
  (** Hash.hpp 15-16: HashCombine(std::size_t&, const T&), HashCombine(const T&, const Args&...). *)
  Definition const_ref (e : expr) : param := LRef true (e_ty e).
  Definition HashCombine_overloads : list candidate :=
    [Candidate (fun args => match args with [_; e] => Some [LRef false Size; const_ref e] | _ => None end) (Some 1);
     Candidate (fun args => match args with [] => None | _ => Some (map const_ref args) end) (Some 0)].
  Definition hash_combine (args : list expr) : resolution := resolve nobase noconv HashCombine_overloads args.

  (** PrivateImpl.hpp 52-56 (no buffer). Class 0 is PrivateImpl, class 1 T. template PrivateImpl(Args&&...), not for PrivateImpl itself. *)
  Definition forward (e : expr) : param := if e_lvalue e then LRef (e_const e) (e_ty e) else if e_const e then LRef true (e_ty e) else RRef (e_ty e).
  Definition PrivateImpl_constructors : list candidate :=
    [fn 1 [ByVal NullptrT]; fn 1 [ByVal (Ptr false (Class 1))];
     Candidate (fun args => match args with [e] => if is_class 0 (e_ty e) then None else Some [forward e] | _ => Some (map forward args) end) (Some 0);
     fn 1 [LRef true (Class 0)]; fn 1 [RRef (Class 0)]].

  (** Signal.hpp 42-43 for one argument. Class 0 is Callback, to which every other class, standing for a callable, converts. *)
  Definition Connect_overloads : list candidate := [fn 1 [LRef true (Class 0)]; fn 1 [RRef (Class 0)]].
  Definition callable_converts (t u : ty) : bool := match t, u with Class _, Class 0 => true | _, _ => false end.

  (** MovableValue.hpp 58-60. Class 0 is MovableValue<T>, class 1 T. *)
  Definition Movable_assignments : list candidate :=
    [Candidate (fun args => match args with [e] => Some [forward e] | _ => None end) (Some 0); fn 1 [LRef true (Class 0)]; fn 1 [RRef (Class 0)]].
  Definition movable_converts (t u : ty) : bool := match t, u with Class 1, Class 0 | Class 0, Class 1 => true | _, _ => false end.

  (** Algorithm.hpp 41-43: CountOf(T(&)[N]), CountOf(const T&), CountOf(const char(&)[N]), which is declared only. *)
  Definition CountOf_overloads : list candidate :=
    [Candidate (fun args => match args with [e] => match e_ty e with Arr t n => Some [LRef (e_const e) (Arr t n)] | _ => None end | _ => None end) (Some 1);
     Candidate (fun args => match args with [e] => Some [const_ref e] | _ => None end) (Some 0);
     Candidate (fun args => match args with [e] => match e_ty e with Arr (Arith AChar) n => Some [LRef true (Arr (Arith AChar) n)] | _ => None end | _ => None end) (Some 2)].
End Library.
