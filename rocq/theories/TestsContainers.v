(** tests/src/MemoryPoolTest.cpp and tests/src/SignalTests.cpp of the library, run on the model. *)
From Verif Require Import Base CellModel VectorModel PoolModel SignalModel.
Open Scope nat_scope.

(** ** MemoryPoolTest: entries are pairs of numbers of 8 bytes in all; two blocks at 1000 and 2000. *)
Notation vec2 := (nat * nat)%type.
Definition counts (p : @pool vec2) : nat * nat * nat := (GetAllocatedEntryCount p, PoolModel.GetBlockCount p, GetFreeEntryCount p).
(** allocationCount: the objects that are constructed and not destroyed *)
Definition alive (p : @pool vec2) : nat := list_sum (map (fun b => length (filter (fun c => match c with Obj _ => true | Raw => false end) (memory b))) (m_blocks p)).
Definition poke (p : @pool vec2) (i : nat) (v : vec2) : outcome (@pool vec2) := p <- user_destroy p i ;; user_construct p i v.   (* assignment to a member *)
Definition peek (p : @pool vec2) (i : nat) : option vec2 :=
  match nth_error (m_blocks p) (i / m_blockSize p) with Some b => match nth_error (memory b) (i mod m_blockSize p) with Some (Obj o) => o | _ => None end | None => None end.

(** "We construct a Vector2" *)
Example test_pool_one :
  (p <- pool_new 2 1000 ;;
   ' (p1, index, v) <- Allocate 8 p (1, 2) 2000 ;;
   i <- RetrieveEntryIndex 8 8 p1 v ;;
   p2 <- poke p1 index (3, 2) ;;
   p3 <- Free 8 p2 index ;;
   Done (counts p, alive p, (counts p1, alive p1, match i with Some i => i =? index | None => false end), peek p2 index, (counts p3, alive p3))) =
  Done ((0, 1, 2), 0, ((1, 1, 1), 1, true), Some (3, 2), ((0, 1, 2), 0)).
Proof. vm_compute. reflexivity. Qed.

(** "We construct three vectors" *)
Example test_pool_three :
  (p <- pool_new 2 1000 ;;
   ' (p1, i1, v1) <- Allocate 8 p (1, 2) 2000 ;; ' (p2, i2, v2) <- Allocate 8 p1 (3, 4) 2000 ;; ' (p3, i3, v3) <- Allocate 8 p2 (5, 6) 2000 ;;
   j1 <- RetrieveEntryIndex 8 8 p3 v1 ;; j2 <- RetrieveEntryIndex 8 8 p3 v2 ;; j3 <- RetrieveEntryIndex 8 8 p3 v3 ;;
   p4 <- poke p3 i1 (3, 2) ;; p4 <- poke p4 i2 (3, 5) ;;
   l <- pool_iterate 8 p4 ;;
   p5 <- Reset p4 ;; l5 <- pool_iterate 8 p5 ;; ' (p6, _) <- PoolModel.Clear p5 ;;
   Done ([counts p1; counts p2; counts p3; counts p5; counts p6], map alive [p1; p2; p3; p5; p6],
     [match j1 with Some i => i =? i1 | None => false end; match j2 with Some i => i =? i2 | None => false end; match j3 with Some i => i =? i3 | None => false end],
     map (peek p4) [i1; i2; i3],
     (length l, list_sum (map (fun '(i, _) => match peek p4 i with Some (x, _) => x | None => 0 end) l), list_sum (map (fun '(i, _) => match peek p4 i with Some (_, y) => y | None => 0 end) l)), length l5)) =
  Done ([(1, 1, 1); (2, 1, 0); (3, 2, 1); (0, 2, 4); (0, 0, 0)], [1; 2; 3; 0; 0], [true; true; true], [Some (3, 2); Some (3, 5); Some (5, 6)], (3, 11, 13), 0).
Proof. vm_compute. reflexivity. Qed.

(** ** SignalTests: three callbacks that increment; then one is disconnected. *)
Definition emitted (w : world) : nat := length (trace w).
Definition quiet : list event -> nat -> list action := fun _ _ => [].
Example test_signal :
  (' (w, c) <- sig_connect (start 1) 0 ;; ' (w, _) <- sig_connect w 0 ;; ' (w, _) <- sig_connect w 0 ;;
   w1 <- emit quiet 10 w 0 ;;
   w2 <- conn_disconnect w (Some c) ;; w3 <- emit quiet 10 w2 0 ;;
   Done (emitted w1 - emitted w, IsConnected w (Some c), IsConnected w2 (Some c), emitted w3 - emitted w2)) = Done (3, true, false, 2).
Proof. vm_compute. reflexivity. Qed.
