(** tests/src/FunctionTraitsTests.cpp, TypeListTests.cpp, TypeNameTests.cpp, TypeTraitsTests.cpp, StringHashTests.cpp, StringUtils.cpp and PathUtils.cpp of the
    library and the Retrieve part of AlgorithmTests.cpp, run on the model. Left out: std::map (its lookup is the one of the standard library). *)
From Coq Require Import Ascii String.
From Coq Require Import ZArith.
From Verif Require Import Base CInt.
From Verif Require TraitsModel TypeListModel TypeNameModel StringModel.
Open Scope nat_scope.

(** ** FunctionTraitsTests: scalars are numbered, and so are the classes S, C, Lambda's and Functor. *)
Module FunctionTraitsTests.
  Import TraitsModel.
  Definition scalar (n : nat) : ty := plain_ty (BScalar n).
  Definition void := scalar 0. Definition int := scalar 1. Definition float := scalar 2. Definition long_long := scalar 3. Definition short := scalar 4. Definition double := scalar 5. Definition long := scalar 6.
  Definition S := 0. Definition C := 1. Definition LambdaClass := 2. Definition FunctorClass := 3.
  Definition operator (n : nat) : call_operator :=
    match n with
    | 2 => OneOperator (Fn int [double] false true false RNone false)
    | 3 => OneOperator (plain_fn long [int; int])
    | _ => NoOperator
    end.
  Definition const_S_ref : ty := plain_ty (BLRef (Ty true false (BClass S))).
  (** IsFunctor_v, ArgCount, FuncType as the return type and the arguments *)
  Definition facts (t : ty) := (IsFunctor operator t, ArgCount operator t, FunctionTraits operator t, ReturnType operator t).
  Definition Func : ty := plain_ty (BFunction (plain_fn void [float; int; long_long; short])).
  Example test_int : IsFunctor operator int = Some false.
  Proof. reflexivity. Qed.
  Example test_Func : (facts Func, ArgType operator Func 2) = (Some true, Some 4, Some (void, [float; int; long_long; short]), Some void, Some long_long).
  Proof. reflexivity. Qed.
  (** The two overloads of C::Method; [constexpr auto] makes the types const. *)
  Definition Method : overload_set :=
    mkSet [mkCandidate (Some C) (plain_fn void [const_S_ref; double]); mkCandidate (Some C) (Fn void [] false true false RLvalue false)] false.
  Definition same (a b : ty) : bool :=
    match a, b with
    | Ty false false (BScalar n), Ty false false (BScalar m) => n =? m
    | Ty false false (BLRef (Ty true false (BClass n))), Ty false false (BLRef (Ty true false (BClass m))) => n =? m
    | _, _ => false
    end.
  Definition selected (Args : list ty) : option ty := option_map (fun f => Ty true false (BMember C (signature f))) (Overload same Args Method).
  Example test_MethodWithoutParam : option_map facts (selected []) = Some (Some true, Some 0, Some (void, []), Some void).
  Proof. reflexivity. Qed.
  Example test_MethodWithParam :
    option_map (fun t => (facts t, ArgType operator t 0)) (selected [const_S_ref; double]) = Some (Some true, Some 2, Some (void, [const_S_ref; double]), Some void, Some const_S_ref).
  Proof. reflexivity. Qed.
  Definition Lambda : ty := Ty true false (BClass LambdaClass).
  Example test_Lambda : (facts Lambda, ArgType operator Lambda 0) = (Some true, Some 1, Some (int, [double]), Some int, Some double).
  Proof. reflexivity. Qed.
  Definition Functor : ty := plain_ty (BClass FunctorClass).
  Example test_Functor : (facts Functor, ArgType operator Functor 0) = (Some true, Some 2, Some (long, [int; int]), Some long, Some int).
  Proof. reflexivity. Qed.
  (** TypeTraitsTests *)
  Definition foo : ty := plain_ty (BFunction (plain_fn int [double; float])).
  Example test_FunctionPtr : FunctionPtr foo = Some (plain_ty (BPointer foo)).
  Proof. reflexivity. Qed.
End FunctionTraitsTests.

(** ** TypeListTests *)
Module TypeListTests.
  Import TypeListModel.
  Inductive type := int | float | long_long | short | double | pointer (t : type).
  Fixpoint same (a b : type) : bool :=
    match a, b with int, int | float, float | long_long, long_long | short, short | double, double => true | pointer a, pointer b => same a b | _, _ => false end.
  Definition remove_pointer (t : type) : type := match t with pointer t => t | t => t end.
  Definition T1 : list type := [].
  Definition T2 := ListAppend T1 int.
  Definition T3 := ListPrepend T2 float.
  Definition T4 := ListAppend T3 float.
  Definition T6 := [long_long; short].
  Definition T7 := match TypeListUnique same T4 with Some T5 => ListConcat T5 T6 | None => [] end.
  Definition T8 := ListTransform T7 pointer.
  Example test_T1 : (TypeListEmpty T1, ListSize T1, TypeListUnique same T1) = (true, 0%Z, Some []).
  Proof. reflexivity. Qed.
  Example test_T2 : (TypeListEmpty T2, ListSize T2, T2) = (false, 1%Z, [int]).
  Proof. reflexivity. Qed.
  Example test_T3_T4 : (T3, T4, ListAt T4 0, ListAt T4 1, ListAt T4 2) = ([float; int], [float; int; float], Some float, Some int, Some float).
  Proof. reflexivity. Qed.
  Example test_T5 : TypeListUnique same T4 = Some [float; int].
  Proof. reflexivity. Qed.
  Example test_T7 :
    (T7, TypeListHas same T7 long_long, ListFind same T7 long_long, TypeListHas same T7 double, ListFind same T7 double, ListSize T7) =
    ([float; int; long_long; short], true, 2%Z, false, (2 ^ 64 - 1)%Z, 4%Z).
  Proof. vm_compute. reflexivity. Qed.
  (** A class template is the list of its arguments with a name. *)
  Example test_T7_variant : ListInstantiate T7 (pair "variant"%string) = ("variant"%string, [float; int; long_long; short]).
  Proof. reflexivity. Qed.
  Example test_T8_T9 : (T8, ListTransform T8 remove_pointer) = ([pointer float; pointer int; pointer long_long; pointer short], T7).
  Proof. reflexivity. Qed.
  Example test_T10_T11 : (TypeListRemove same T4 float, TypeListRemove same T4 int) = ([int], [float; float]).
  Proof. reflexivity. Qed.
End TypeListTests.

(** ** TypeNameTests with the three compilers; MSVC writes the keyword of a class before its name. *)
Module TypeNameTests.
  Import TypeNameModel.
  Definition names := map txt ["int"; "Foo"; "Int<42>"; "Name::Space"; "Name::SpaceClass"; "Name::SpaceStruct"; "Class<Foo>"; "Nz::Test"]%string.
  Example test_gcc : map (fun n => type_name_gnu (pretty_gcc n)) names = map Done names.
  Proof. vm_compute. reflexivity. Qed.
  Example test_clang : map (fun n => type_name_gnu (pretty_clang n)) names = map Done names.
  Proof. vm_compute. reflexivity. Qed.
  Example test_msvc :
    map (fun n => type_name_msvc (pretty_msvc (txt n))) ["int"; "class Foo"; "struct Int<42>"; "enum Name::Space"; "enum Name::SpaceClass"; "enum Name::SpaceStruct"; "struct Class<class Foo>"; "struct Nz::Test"]%string =
    map (fun n => Done (txt n)) ["int"; "Foo"; "Int<42>"; "Name::Space"; "Name::SpaceClass"; "Name::SpaceStruct"; "Class<class Foo>"; "Nz::Test"]%string.
  Proof. vm_compute. reflexivity. Qed.
End TypeNameTests.

(** ** StringHashTests, StringUtils, PathUtils *)
Module StringTests.
  Import StringModel.
  Open Scope Z_scope.
  Definition bytes (s : string) : list Z := map (fun c => Z.of_nat (nat_of_ascii c)) (list_ascii_of_string s).
  (** A hash function, one bucket at first and two rehashes *)
  Definition hash (l : list Z) : Z := fold_left (fun h b => (h * 31 + b) mod 2 ^ 64) l 7.
  Definition retrieve (m : @umap Z) (k : key) : outcome Z := it <- Retrieve hash true m k ;; e <- entry m it ;; Done (snd e).
  Example test_StringHash :
    (m <- umap_assign hash (Some 1%nat) [] (bytes "test1") 1 ;; m <- umap_assign hash (Some 3%nat) m (bytes "test2") 2 ;; m <- umap_assign hash (Some 7%nat) m (bytes "test3") 3 ;;
     a <- retrieve m (KView (bytes "test1")) ;; b <- retrieve m (KString (bytes "test2")) ;; c <- retrieve m (KPointer (bytes "test3" ++ [0])) ;; Done (a, b, c)) = Done (1, 2, 3).
  Proof. vm_compute. reflexivity. Qed.
  (** The literal and its terminator are the only object of the memory. *)
  Definition m : memory := [bytes "test" ++ [0]].
  Definition literal := Some (MkPointer 0 0).
  Definition whole : view := mkView (MkPointer 0 0) 4.
  Example test_FromUtf8 :
    ((v <- FromUtf8_cstring m literal ;; Done (view_bytes m v)), FromUtf8_string (bytes "test"), view_bytes m (FromUtf8_view whole)) = (Done (bytes "test"), bytes "test", bytes "test").
  Proof. vm_compute. reflexivity. Qed.
  Example test_ToUtf8 :
    ((v <- ToUtf8_cstring m literal ;; Done (view_bytes m v)), ToUtf8_string (bytes "test"), view_bytes m (ToUtf8_view whole)) = (Done (bytes "test"), bytes "test", bytes "test").
  Proof. vm_compute. reflexivity. Qed.
  Example test_FromUtf8_17 :
    (FromUtf8_cstring_17 m literal, FromUtf8_string_17 (bytes "test"), view_bytes m (FromUtf8_view_17 whole)) = (Done (bytes "test"), bytes "test", bytes "test").
  Proof. vm_compute. reflexivity. Qed.
  Example test_path :
    (posix_PathToString (posix_Utf8Path (bytes "test")), (p <- windows_Utf8Path (bytes "test") ;; windows_PathToString p)) = (bytes "test", Done (bytes "test")).
  Proof. vm_compute. reflexivity. Qed.
End StringTests.
