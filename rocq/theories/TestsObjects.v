(** tests/src/ResultTests.cpp, SparsePtrTests.cpp, EnumArrayTest.cpp, FlagTests.cpp, CallOnExitTests.cpp, MovableValueTests.cpp, PrivateImplTests.cpp
    and FunctionRefTests.cpp of the library, run on the model. Left out: the numbers of copies and moves, which the model does not count. *)
From Coq Require Import String.
From Coq Require Import ZArith.
From Verif Require Import Base CInt.
Open Scope nat_scope.
From Verif Require ResultModel SparseModel EnumArrayModel FlagsModel ExitModel DeferModel MovableModel PimplModel FunctionRefModel.

(** ** ResultTests: the payloads are strings, and a moved-from string is empty. *)
Module ResultTests.
  Import ResultModel.
  Open Scope string_scope.
  Definition moved (s : string) : string := "".
  Definition AlwaysSucceed (s : string) : result string string := fst (from_ok moved RV s).
  Definition AlwaysFails (s : string) : result string string := fst (from_err moved RV s).
  Definition no_throw {E} (e : E) : bool := false.
  Definition stoi (s : string) : Z := match s with "42" => 42%Z | _ => 0%Z end.
  (** "Default creating a result" *)
  Example test_default :
    (op_arrow (value_tag 42%Z : result Z Z), op_arrow (fst (from_err (fun x => x) RV 42%Z) : result Z Z)) = (Done 42%Z, Fault FThrow).
  Proof. reflexivity. Qed.
  (** "Handling a success" *)
  Example test_success :
    let test := AlwaysSucceed "42" in
    (IsOk test, IsErr test, GetValue test, (' (v, _, _) <- GetValueOr moved LV test RV "94" ;; Done v), op_star test, GetError test) =
    (true, false, Done "42", Done "42", Done "42", Fault FThrow).
  Proof. reflexivity. Qed.
  Example test_success_size : (v <- op_arrow (AlwaysSucceed "42") ;; Done (String.length v)) = Done 2.
  Proof. reflexivity. Qed.
  Example test_success_map :
    Map_const false no_throw (AlwaysSucceed "42") (fun v (_ : unit) => Done (stoi v, tt)) tt = Done (RVal 42%Z, tt).
  Proof. reflexivity. Qed.
  (** [std::move(test).Map([&](std::string&& value) { originalValue = std::move(value); })], then a Map of the void result. *)
  Example test_success_map_void :
    (' (voidResult, originalValue) <- Map_const_void false no_throw (AlwaysSucceed "42") (fun v (_ : string) => Done v) "" ;;
     ' (remappedVoid, _) <- void_Map_const false no_throw voidResult (fun (_ : unit) => Done (0%Z, tt)) tt ;;
     Done (originalValue, IsOk remappedVoid, IsErr remappedVoid)) = Done ("42", true, false).
  Proof. reflexivity. Qed.
  (** "Handling a failure"; the functors record that they were called. *)
  Example test_failure :
    let test := AlwaysFails "An error occurred" in
    (IsOk test, IsErr test, GetError test, Expect test, GetValue test, (' (v, _, _) <- GetValueOr moved LV test RV "This is a value" ;; Done v)) =
    (false, true, Done "An error occurred", Fault FThrow, Fault FThrow, Done "This is a value").
  Proof. reflexivity. Qed.
  Example test_failure_map :
    (' (voidResult, called) <- Map_const_void false no_throw (AlwaysFails "An error occurred") (fun _ (_ : bool) => Done true) false ;;
     ' (remapped, called') <- void_Map_const false no_throw voidResult (fun (_ : bool) => Done (42%Z, true)) false ;;
     e <- void_GetError voidResult ;;
     e' <- GetError remapped ;;
     Done (called, void_IsOk voidResult, void_IsErr voidResult, e, void_Expect voidResult, called', IsErr remapped, e')) =
    Done (false, false, true, "An error occurred", Fault FThrow, false, true, "An error occurred").
  Proof. reflexivity. Qed.
  (** "Performing automatic casts" *)
  Example test_casts :
    (' (result2, source) <- convert (fun x => x) moved (cast i32) (fun e => e) LV (RVal 42%Z : result Z string) ;; a <- GetValue result2 ;; b <- GetValue source ;;
     ' (castedErr, err) <- convert (fun x => x) moved (fun p : Z => p) (fun e => e) LV (RErr "Something went wrong" : result Z string) ;; e <- GetError castedErr ;; e' <- GetError err ;;
     Done (a, b, e, e')) = Done (42%Z, 42%Z, "Something went wrong", "Something went wrong").
  Proof. reflexivity. Qed.
  (** "Using try macros" *)
  Definition step (r : result string string) : unit -> outcome (result string string * unit) := fun s => Done (r, s).
  Definition Test (first second : result string string) : outcome (result string string * unit) :=
    run moved (Try (step first) (TryValue (step second) (fun val => Return (step (fst (from_ok moved LV val)))))) tt.
  Example test_try :
    (Test (AlwaysFails "Err") (AlwaysSucceed "Ok"), Test (AlwaysSucceed "Ok") (AlwaysFails "Err"), Test (AlwaysSucceed "Ok1") (AlwaysSucceed "Ok2")) =
    (Done (RErr "Err", tt), Done (RErr "Err", tt), Done (RVal "Ok2", tt)).
  Proof. reflexivity. Qed.
End ResultTests.

(** ** SparsePtrTests: five ints from address 1000 on; the int at [1000 + 4 i] is [i]. *)
Module SparsePtrTests.
  Import SparseModel.
  Open Scope Z_scope.
  Definition arrays := Iso 1000 1020.
  Definition value (a : Z) : Z := (a - 1000) / 4.
  Example test_subscript : (q <- sp_of_size 1000 (2 * 4) ;; a <- sp_index arrays i32 q 2 ;; Done (value a)) = Done 4.
  Proof. reflexivity. Qed.
  Example test_inc_dec :
    (q <- sp_of_size 1000 (2 * 4) ;;
     q1 <- sp_inc arrays q ;; ' (old, q2) <- sp_post_inc arrays q1 ;; q3 <- sp_dec arrays q2 ;; ' (oldMinus, q4) <- sp_post_dec arrays q3 ;;
     Done (map (fun q => value (ptr q)) [q1; old; q2; q3; oldMinus; q4])) = Done [2; 2; 4; 2; 2; 0].
  Proof. reflexivity. Qed.
  Example test_offsets :
    (q <- sp_of_size 1000 (2 * 4) ;; offsetTwo <- sp_add arrays i32 q 2 ;; offsetZero <- sp_sub arrays i32 offsetTwo 2 ;; d <- sp_diff offsetTwo offsetZero ;;
     Done (value (ptr offsetTwo), value (ptr offsetZero), d)) = Done (4, 0, 2).
  Proof. reflexivity. Qed.
End SparsePtrTests.

(** ** EnumArrayTest *)
Module EnumArrayTests.
  Import EnumArrayModel.
  Open Scope Z_scope.
  Definition array := [1; 2; 3].
  Example test_at : map (fun e => i <- at_entry array e ;; vget array i) [0; 1; 2] = [Done 1; Done 2; Done 3].
  Proof. reflexivity. Qed.
  (** The loop counts its rounds and checks [UnderlyingCast(enumKey) == value - 1]. *)
  Example test_iter_kv :
    iterate i32 0 (fun _ => array) (fun key i s => v <- vget array i ;; Done (Datatypes.S (fst s), snd s && (key =? v - 1))) 10 (0%nat, true) = Done (length array, true).
  Proof. reflexivity. Qed.
End EnumArrayTests.

(** ** FlagTests. Test has the largest enumerator C = 2 and the automatic values; Test2 has Count = 5 and its own masks. *)
Module FlagTests.
  Import FlagsModel.
  Open Scope Z_scope.
  Definition A := 0. Definition B := 1. Definition C := 2.
  Definition tests (f : Z) : outcome (list bool) :=
    a <- flags_of_enum 2 true A ;; b <- flags_of_enum 2 true B ;; c <- flags_of_enum 2 true C ;; Done (map (flags_test f) [a; b; c]).
  Example test_flags :
    (f <- enum_or 2 true A C ;; t <- tests f ;; l <- flags_list 2 true f ;; Done (flags_to_int u8 f, t, l)) = Done (5, [true; false; true], [A; C]).
  Proof. vm_compute. reflexivity. Qed.
  Example test_clear_some :
    (f <- enum_or 2 true A C ;; g <- enum_or 2 true B C ;; let f := flags_clear 2 f g in t <- tests f ;; l <- flags_list 2 true f ;; Done (flags_to_int u16 f, t, l)) =
    Done (1, [true; false; false], [A]).
  Proof. vm_compute. reflexivity. Qed.
  Example test_clear_all :
    (f <- enum_or 2 true A C ;; let f := flags_clear_all f in t <- tests f ;; l <- flags_list 2 true f ;; Done (flags_to_int u32 f, t, l)) = Done (0, [false; false; false], []).
  Proof. vm_compute. reflexivity. Qed.
  Example test_set :
    (f <- enum_or 4 false 1 4 ;; g <- enum_or 4 false 2 4 ;; let f := flags_set 4 f g in
     a <- flags_of_enum 4 false 1 ;; b <- flags_of_enum 4 false 2 ;; c <- flags_of_enum 4 false 4 ;; l <- flags_list 4 false f ;;
     Done (flags_to_int u64 f, map (flags_test f) [a; b; c], l)) = Done (7, [true; true; true], [1; 2; 4]).
  Proof. vm_compute. reflexivity. Qed.
End FlagTests.

(** ** CallOnExitTests: what matters is how often the functor ran. *)
Module CallOnExitTests.
  Import ExitModel.
  Definition start : @state unit := mkState (construct tt) [].
  Definition quiet (_ : unit) : list self_action := [].
  Definition nothrow (_ : unit) (_ : list unit) : bool := false.
  Definition end_of_scope (s : @state unit) : outcome nat := l <- destroy quiet nothrow 5 s ;; Done (length l).
  Example test_end_of_scope : (length (runs start), end_of_scope start) = (0, Done 1).
  Proof. reflexivity. Qed.
  Example test_reset : end_of_scope (Reset start) = Done 0.
  Proof. reflexivity. Qed.
  Example test_call_and_reset : (' (s, _) <- CallAndReset quiet nothrow 5 start ;; end_of_scope s) = Done 1.
  Proof. reflexivity. Qed.
  (** NAZARA_DEFER in an inner block, with a look at the variable before the end of the block and after it *)
  Import DeferModel.
  Definition look : @code (bool * list bool) := fun st => ((fst st, snd st ++ [fst st]), false).
  Example test_defer :
    run (SCons (Block (SCons (Defer 47 (fun st => ((true, snd st), false))) (SCons (Do look) SNil))) (SCons (Do look) SNil)) (false, []) =
    Some (Done (Falls, (true, [false; true]))).
  Proof. reflexivity. Qed.
End CallOnExitTests.

(** ** MovableValueTests: Buffer has the special members of its only member, a MovableLiteral<int, -1>. *)
Module MovableTests.
  Import MovableModel.
  Open Scope Z_scope.
  Example test_constructors : (lit_get (lit_default (-1)), lit_get (lit_of_value 1)) = (-1, 1).
  Proof. reflexivity. Qed.
  (** The new object and the source *)
  Example test_copies : (lit_copy_construct (lit_of_value 42), lit_copy_assign (lit_default (-1)) (lit_of_value 42)) = ((42, 42), (42, 42)).
  Proof. reflexivity. Qed.
  Example test_moves : (lit_move_construct (-1) (lit_of_value 42), lit_move_assign (lit_default (-1)) (lit_of_value 42)) = ((42, -1), (42, -1)).
  Proof. reflexivity. Qed.
End MovableTests.

(** ** PrivateImplTests: the objects that are alive at the end of the inner WHEN and after both handles are gone. The payload is the number 10;
    the object made by [counter2(nullptr, 0)] has no counter, and after the move assignment it lives on in counter1, uncounted. *)
Module PrivateImplTests.
  Import PimplModel.
  Fixpoint run (os : list (@op nat)) (s : @state nat) : outcome (@state nat) := match os with [] => Done s | o :: os => ' (s, _) <- step true (fun v _ => v) o s ;; run os s end.
  Definition alive (s : @state nat) : nat := length (filter (fun o => match o with Some v => v =? 10 | None => false end) (heap s)).
  (** [h]: the handle counter2, whose Test(10) reads the value. *)
  Definition scenario (os : list (@op nat)) : outcome (nat * nat * nat) :=
    s <- run os (mkState [] []) ;; v <- Deref 1 s ;; e <- run [ODestroy 1; ODestroy 0] s ;; Done (v, alive s, alive e).
  Definition scenarios (first : list (@op nat)) : list (outcome (nat * nat * nat)) :=
    map (fun os => scenario (first ++ os)) [[OCopy 0 false]; [OMove 0]; [ONew 0 false; OAssignCopy 1 0 false]; [ONew 0 false; OAssignMove 1 0]].
  Definition expected : list (outcome (nat * nat * nat)) := [Done (10, 2, 0); Done (10, 1, 0); Done (10, 2, 0); Done (10, 1, 0)].
  Example test_dynamic : scenarios [ONew 10 false] = expected.
  Proof. vm_compute. reflexivity. Qed.
  (** Deferred initialisation *)
  Example test_deferred : scenarios [ONewNull; OEmplace 0 10 false] = expected.
  Proof. vm_compute. reflexivity. Qed.
  (** In place: the moved-from object stays alive. *)
  Fixpoint brun (os : list (@bop nat)) (s : @bstate nat) : outcome (@bstate nat) := match os with [] => Done s | o :: os => ' (s, _) <- bstep (fun v => v) o s ;; brun os s end.
  Definition balive (s : @bstate nat) : nat := length (filter (fun o => match o with Some (Some v) => v =? 10 | _ => false end) s).
  Definition bscenario (os : list (@bop nat)) : outcome (nat * nat * nat) :=
    s <- brun (BONew 10 false :: os) [] ;; v <- bderef s 1 ;; e <- brun [BODestroy 1; BODestroy 0] s ;; Done (v, balive s, balive e).
  Example test_in_place :
    map bscenario [[BOCopy 0 false]; [BOMove 0 false]; [BONew 0 false; BOAssignCopy 1 0 false]; [BONew 0 false; BOAssignMove 1 0 false]] =
    [Done (10, 2, 0); Done (10, 2, 0); Done (10, 2, 0); Done (10, 2, 0)].
  Proof. vm_compute. reflexivity. Qed.
End PrivateImplTests.

(** ** FunctionRefTests: a callable is the number that it returns; [&Foo::Bar] takes the object, here its m_value. *)
Module FunctionRefTests.
  Import FunctionRefModel.
  Open Scope Z_scope.
  Definition call (f : option Z) (a : Z) : option Z * Z := (f, match f with Some n => n | None => a end).
  Definition Callback (w : world) (f : fref) : outcome Z := if negb (to_bool f) then Done (-42) else ' (_, r) <- ref_call call w f 0 ;; Done r.
  Definition callables : @world (option Z) := [Some (Some 0); Some (Some 42); Some (Some 47); Some None].
  Example test_callback : map (Callback callables) [of_nullptr; of_callable 0; of_callable 1; of_callable 2] = [Done (-42); Done 0; Done 42; Done 47].
  Proof. reflexivity. Qed.
  Example test_method : (' (_, r) <- ref_call call callables (of_callable 3) 42 ;; Done (to_bool (of_callable 3), r)) = Done (true, 42).
  Proof. reflexivity. Qed.
  Example test_null : to_bool of_nullptr = false.
  Proof. reflexivity. Qed.
End FunctionRefTests.
