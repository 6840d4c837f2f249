(** tests/src/FixedVectorTest.cpp and tests/src/StackVectorTest.cpp of the library, run on the model. An element is an AliveCounter: the number of its counter
    (0 for none) and its value. The move and copy counts of the tests are left out, for the model does not count them; iterators in reverse are std::reverse_iterator. *)
From Coq Require Import ZArith.
From Verif Require Import Base CellModel VectorModel StackModel.
Open Scope nat_scope.

Notation A := (nat * Z)%type.
Definition none : A := (0, 0%Z).
Definition own (z : Z) : A := (1, z).

Section Suite.
Context {V : Type}.
Variables (run : list (vop A) -> outcome (V * list (option nat))) (elements : V -> list (option A)) (objects : V -> list (option A)) (finish : V -> outcome (list (option A))).
Variables (capacity elementCount : nat) (fixed : bool).   (* [fixed]: StackVector has no reserve *)

(** std::equal with the expected values; and counter.aliveCount == 0 when the vector has ended *)
Definition values (v : V) : list (option Z) := map (option_map snd) (elements v).
Definition alive (c : nat) (v : V) : nat := length (filter (fun o => match o with Some (k, _) => k =? c | None => true end) (objects v)).
Definition same (l m : list (option Z)) : bool := if list_eq_dec (fun x y : option Z => ltac:(decide equality; apply Z.eq_dec)) l m then true else false.
Definition gives (ops : list (vop A)) (expected : list Z) : outcome bool :=
  ' (v, _) <- run ops ;; rest <- finish v ;; Done (same (values v) (map Some expected) && (length rest =? 0)).
(** after the operations: size and number of living objects of a counter *)
Definition leaves (ops : list (vop A)) (n c k : nat) : outcome bool :=
  ' (v, _) <- run ops ;; rest <- finish v ;; Done ((length (elements v) =? n) && (alive c v =? k) && (length rest =? 0)).

Definition zs (l : list nat) : list Z := map Z.of_nat l.
Definition iota : list (vop A) := Resize 10 :: map (fun i => SetAt i (own (Z.of_nat i - 5))) (seq 0 10).
Definition to (a b : Z) : list Z := map (fun k => (a + Z.of_nat k)%Z) (seq 0 (Z.to_nat (b - a + 1))).
Definition emplace_tests (mk : nat -> A -> vop A) : list (outcome bool) :=
  [gives (map (fun i => mk i (own (Z.of_nat i))) (seq 0 5)) [0; 1; 2; 3; 4]%Z;
   gives (map (fun i => mk 0 (own (Z.of_nat i))) (seq 0 5)) [4; 3; 2; 1; 0]%Z;
   gives (map (fun i => mk (i / 2) (own (Z.of_nat i))) (seq 0 10)) [1; 3; 5; 7; 9; 8; 6; 4; 2; 0]%Z].
Definition three : list (vop A) := map (fun i => PushCopy (own (Z.of_nat i))) (seq 0 3).
Definition suite : list (outcome bool) :=
  [leaves [] 0 1 0;
   leaves [Resize capacity] capacity 1 0; leaves [Resize capacity; Resize 0] 0 1 0;
   leaves [ResizeWith elementCount (own 0)] elementCount 1 elementCount; leaves [ResizeWith elementCount (own 0); Resize 0] 0 1 0;
   gives (map (fun i => EmplaceBack (own (Z.of_nat i))) (seq 0 5)) [0; 1; 2; 3; 4]%Z;
   leaves three 3 1 3; gives three [0; 1; 2]%Z;
   leaves (three ++ [ResizeWith 5 (2, 0%Z)]) 5 2 2; gives (three ++ [ResizeWith 5 (2, 0%Z)]) [0; 1; 2; 0; 0]%Z;
   gives (three ++ [ResizeWith 5 (2, 0%Z); Resize 0]) []; leaves (three ++ [ResizeWith 5 (2, 0%Z); ResizeWith 0 (3, 0%Z)]) 0 3 0; leaves (three ++ [ResizeWith 5 (2, 0%Z); Clear]) 0 1 0;
   gives iota (to (-5) 4);
   gives (iota ++ repeat PopBack 5) (to (-5) (-1));
   gives (iota ++ [Erase 0; Erase 0]) (to (-3) 4);
   gives (iota ++ [Erase 2; Erase 2; Erase 6]) [-5; -4; -1; 0; 1; 2; 4]%Z;
   gives (iota ++ [Erase 9; Erase 8]) (to (-5) 2);
   gives (iota ++ [EraseRange 2 7]) [-5; -4; 2; 3; 4]%Z;
   gives (iota ++ [EraseRange 0 10]) []] ++ emplace_tests Insert ++ emplace_tests InsertMove ++
  (if fixed then [] else [leaves (Reserve elementCount :: map (fun i => EmplaceBack (own (Z.of_nat i))) (seq 0 elementCount)) elementCount 1 elementCount]).
Definition passed : bool := forallb (fun o => match o with Done b => b | Fault _ => false end) suite.
End Suite.

Definition cells (m : list (cell A)) : list (option A) := flat_map (fun c => match c with Obj o => [o] | Raw => [] end) m.
Section Fixed.
Variables (has : bool) (cap : nat).
Definition fv_elements (v : fvec A) : list (option A) := map (fun i => match fv_load has v i with Done o => o | Fault _ => None end) (seq 0 (fv_size has v)).
Definition fv_objects (v : fvec A) : list (option A) := cells (m_data v) ++ fallback v.
Definition fv_passed : bool := passed (fv_run has cap none (fv_new cap)) fv_elements fv_objects (fun v => m <- fv_destroy has v ;; Done (cells m)) cap 50 false.

(** Construction with elements, copies and moves. *)
Definition shows (v : fvec A) (l : list Z) : bool := same (map (option_map snd) (fv_elements v)) (map Some l).
Definition copies : outcome bool :=
  v50 <- fv_new_size has cap 50 (own 42) ;;
  ' (v, _) <- fv_run has cap none (fv_new cap) iota ;;
  c <- fv_copy has cap v ;;
  ' (m, v') <- fv_move has cap v ;; v' <- fv_clear has v' ;;
  o <- fv_new_size has cap 50 (2, 42%Z) ;;
  l <- fv_assign has cap [o; v] 0 1 ;; a <- vget l 0 ;; a2 <- fv_clear has a ;;
  l <- fv_move_assign has cap [o; v] 0 1 ;; b <- vget l 0 ;; s <- vget l 1 ;; s <- fv_clear has s ;;
  Done (shows v50 (repeat 42%Z 50) && (length (fv_objects v50) =? 50) &&
        shows c (to (-5) 4) && (length (fv_objects c) =? 10) && shows m (to (-5) 4) && (length (fv_objects m) =? 10) && (length (fv_objects v') =? 0) &&
        shows a (to (-5) 4) && (length (fv_objects a) =? 10) && (length (fv_objects a2) =? 0) && shows b (to (-5) 4) && (length (fv_objects b) =? 10) && (length (fv_objects s) =? 0)).
End Fixed.

(** Nz::FixedVector<AliveCounter, 50>; Nz::HybridVector<AliveCounter, 2>, 5 and 100 *)
Example test_FixedVector : map (fun '(has, cap) => fv_passed has cap) [(false, 50); (true, 2); (true, 5); (true, 100)] = repeat true 4.
Proof. vm_compute. reflexivity. Qed.
Example test_FixedVector_copies : map (fun '(has, cap) => copies has cap) [(false, 50); (true, 2); (true, 5); (true, 100)] = repeat (Done true) 4.
Proof. vm_compute. reflexivity. Qed.
(** Objects without a default constructor *)
Example test_FixedVector_NoDefaultConstructor :
  (v <- fv_new_list false 3 0 [1; 2; 3] ;; c <- fv_clear false v ;; Done (m_data v, m_data c)) = Done (map (fun x => Obj (Some x)) [1; 2; 3], [Raw; Raw; Raw]).
Proof. vm_compute. reflexivity. Qed.

(** NazaraStackVector(AliveCounter, capacity) *)
Definition block_objects (s : list (list (cell A)) * svec) : list (option A) := flat_map cells (fst s).
Definition sv_elements (s : list (list (cell A)) * svec) : list (option A) := map (fun i => match sv_at (fst s) (snd s) i with Done o => o | Fault _ => None end) (seq 0 (v_size (snd s))).
Definition sv_passed (cap : nat) : bool := passed (sv_run none ([repeat Raw cap], sv_new 0 cap)) sv_elements block_objects (fun s => h <- sv_destroy none (fst s) (snd s) ;; Done (flat_map cells h)) cap cap true.
Example test_StackVector : sv_passed 50 = true.
Proof. vm_compute. reflexivity. Qed.
