(** tests/src/BitsetTests.cpp of the library, run on the model: for vectors of blocks, fixed and hybrid vectors, with blocks of 8, 16, 32 and 64 bits.
    Each test gives the conjunction of its CHECKs; an assertion or undefined behaviour would show as a fault.
    Left out: Resize to 1024 * 1024 (unary numbers), and the capacities, which are C144. *)
From Coq Require Import Ascii String.
From Verif Require Import Base BitsModel BitsetModel VectorModel FixedBitsetModel.
Open Scope nat_scope.

Definition chars (s : string) : list N := map N_of_ascii (list_ascii_of_string s).
Definition both (a b : outcome bool) : outcome bool := x <- a ;; y <- b ;; Done (x && y).
Definition all (l : list (outcome bool)) : outcome bool := fold_right both (Done true) l.
Definition no (a : outcome bool) : outcome bool := x <- a ;; Done (negb x).

Record api (B : Type) := Api {
  bits : nat;                                   (* bitsPerBlock *)
  empty_ : B; make_ : nat -> bool -> outcome B; string_ : list N -> outcome B; resize : B -> nat -> bool -> outcome B;
  size_ : B -> nat; count_ : B -> nat;          (* GetSize, GetBlockCount *)
  test : B -> nat -> outcome bool; set : B -> nat -> bool -> outcome B;   (* operator[] and its Bit *)
  eq_ : B -> B -> outcome bool; all_ : B -> outcome bool; any_ : B -> outcome bool; none_ : B -> outcome bool;
  and_ : B -> B -> outcome B; or_ : B -> B -> outcome B; xor_ : B -> B -> outcome B; not_ : B -> outcome B;
  left_ : B -> nat -> outcome B; right_ : B -> nat -> outcome B; reverse_ : B -> outcome B;
  append_ : nat -> B -> N -> nat -> outcome B; write_ : list N -> B -> nat * nat -> nat -> outcome (B * (nat * nat));
  first_ : B -> outcome (option nat); next_ : B -> nat -> outcome (option nat);
  swap_ : B -> B -> outcome (B * B); copy_ : B -> outcome B
}.
Arguments Api {B}.

Section Suite.
Context {B : Type} (a : api B).
Notation "x == y" := (u <- x ;; v <- y ;; eq_ B a u v) (at level 70).
Definition str (s : string) : outcome B := string_ B a (chars s).

(** CheckAppend *)
Definition data1 : list N := [55; 222; 66]%N.   (* 00110111 11011110 01000010 *)
Definition append_value (i n : nat) : N :=
  let d := fun k => nth k data1 0%N in
  let v := N.shiftr (d (i / 8)) (N.of_nat (i mod 8)) in
  if (8 <? i mod 8 + n) && negb (i / 8 =? 2) then N.lor v (N.shiftl (d (i / 8 + 1)) (N.of_nat (8 - i mod 8))) else v.
Definition block_count_ok (b : B) (n : nat) : bool := count_ B a b =? n / bits B a + Nat.min 1 (n mod bits B a).
Definition check_append (n : nat) : outcome bool :=
  b <- foreach (range 0 (24 / n)) (fun b k => append_ B a 16 b (append_value (k * n) n) n) (empty_ B a) ;;
  both (Done ((size_ B a b =? 24) && block_count_ok b 24)) (Done b == str "010000101101111000110111").

(** CheckBitOps, CheckBitOpsMultipleBlocks *)
Definition check_ops (first second and or xor : string) : outcome bool :=
  f <- str first ;; s <- str second ;;
  n <- and_ B a f s ;; o <- or_ B a f s ;; x <- xor_ B a f s ;; c <- not_ B a o ;;
  all [Done n == str and; Done o == str or; all_ B a o; Done x == str xor; no (all_ B a x); none_ B a c].
Definition check_shifts : outcome bool :=
  f <- str "01001" ;; s <- str "10111" ;; f <- left_ B a f 1 ;; s <- right_ B a s 2 ;; both (Done f == str "10010") (Done s == str "101").
Definition check_shifts_multiple : outcome bool :=
  f <- str "01001011010010101001010011010101001" ;; s <- str "10111111101101110110111101101110110" ;; f <- left_ B a f 16 ;; s <- right_ B a s 16 ;;
  f' <- left_ B a f 1 ;; s' <- right_ B a s 1 ;;
  all [Done f == str "10010100110101010010000000000000000"; Done f' == str "00101001101010100100000000000000000"; Done s == str "1011111110110111011"; Done s' == str "101111111011011101"].

(** CheckConstructor *)
Definition check_constructor : outcome bool := b <- make_ B a 3 false ;; c <- str "0101" ;; Done ((size_ B a b =? 3) && (size_ B a c =? 4)).

(** CheckCopyMoveSwap *)
Definition check_copy : outcome bool :=
  o <- make_ B a 3 true ;; c <- copy_ B a o ;;
  both (Done c == Done o) (c <- foreach (range 0 (size_ B a c)) (fun c i => set B a c i false) c ;; both (no (Done c == Done o)) (Done c == make_ B a 3 false)).
Definition check_swap : outcome bool :=
  f <- str "01001" ;; s <- str "10110" ;; let t := empty_ B a in
  of <- copy_ B a f ;; os <- copy_ B a s ;;
  ' (f, t) <- swap_ B a f t ;; ' (s, t) <- swap_ B a s t ;; ' (t, f) <- swap_ B a t f ;;
  all [Done of == Done s; Done os == Done f; Done (size_ B a t =? 0)].

(** CheckIter: for (bit : block.IterBits()) *)
Fixpoint iterate (fuel : nat) (block found : B) (it : option nat) : outcome (B * bool) :=
  match it, fuel with
  | None, _ => Done (found, true)
  | Some _, 0 => Fault FDiverge
  | Some bit, S fuel =>
    x <- test B a block bit ;; y <- test B a found bit ;; found <- set B a found bit true ;; n <- next_ B a block bit ;;
    ' (found, ok) <- iterate fuel block found n ;; Done (found, ok && x && negb y)
  end.
Definition check_iter : outcome bool :=
  block <- str "0101000001100101011101000110100101110100001000000110011001101111011101010110100101101110011001010111010101110010001000000011101100101001" ;;
  found <- make_ B a (size_ B a block) false ;; any <- any_ B a found ;;
  i <- first_ B a block ;; ' (found, ok) <- iterate (size_ B a block) block found i ;;
  found <- xor_ B a found block ;; none <- none_ B a found ;; Done (negb any && ok && none).

(** CheckRead *)
Definition data2 : list N := [149; 210; 106]%N.   (* 10010101 11010010 01101010 *)
Definition check_read (n : nat) : outcome bool :=
  ' (b, _) <- foreach (range 0 (24 / n)) (fun '(b, seq) _ => write_ B a data2 b seq n) (empty_ B a, (0, 0)) ;;
  both (Done ((size_ B a b =? 24) && block_count_ok b 24)) (Done b == str "011010101101001010010101").

(** CheckResize *)
Definition check_resize (n : nat) : outcome bool :=
  all (map (fun v => b <- resize B a (empty_ B a) n v ;; if n =? 0 then Done (size_ B a b =? 0) else
    m <- test B a b (n / 2) ;; b2 <- resize B a b (n * 2) (negb v) ;; x <- test B a b2 (n - 1) ;; y <- test B a b2 n ;;
    Done ((size_ B a b =? n) && Bool.eqb m v && Bool.eqb x v && Bool.eqb y (negb v))) [false; true]).

(** CheckReverse *)
Definition check_reverse : outcome bool :=
  b <- str "010011100010001101001111" ;; r <- reverse_ B a b ;; r2 <- reverse_ B a r ;;
  both (Done r == string_ B a (rev (chars "010011100010001101001111"))) (Done r2 == Done b).

Definition check (sizes : list nat) : outcome bool :=
  all (map check_append [1; 2; 3; 4; 6; 8; 12] ++
    [check_ops "01001" "10111" "00001" "11111" "11110"; check_shifts;
     check_ops "01001011010010101001010011010101001" "10111111101101110110111101101110110" "00001011000000100000010001000100000" "11111111111111111111111111111111111" "11110100111111011111101110111011111";
     check_shifts_multiple; check_constructor; check_copy; check_swap; check_iter] ++
    map check_read [1; 2; 3; 4; 6; 8; 12; 24] ++ map check_resize sizes ++ [check_reverse]).
End Suite.

Definition one_of {B} (d : B) (l : list B) : nat -> B := fun i => nth i l d.
Definition plain (w : nat) : api bitset :=
  let bin (f : (nat -> bitset) -> nat -> nat -> nat -> outcome (nat -> bitset)) x y := st <- f (one_of empty [empty; x; y]) 0 1 2 ;; Done (st 0) in
  {| bits := w; empty_ := empty; make_ := make w; string_ := of_string w; resize := BitsetModel.Resize w; size_ := GetSize; count_ := GetBlockCount;
     test := fun b i => r <- bit_ref w b i ;; Bit_Test b r; set := fun b i v => r <- bit_ref w b i ;; Bit_Set w b r v;
     eq_ := equals; all_ := TestAll w; any_ := fun b => Done (TestAny b); none_ := fun b => Done (TestNone b);
     and_ := bin (PerformsAND w); or_ := bin (PerformsOR w); xor_ := bin (PerformsXOR w); not_ := fun x => st <- PerformsNOT w (one_of empty [empty; x]) 0 1 ;; Done (st 0);
     left_ := ShiftLeft w; right_ := ShiftRight w; reverse_ := Reverse w; append_ := AppendBits w; write_ := Write w;
     first_ := fun b => Done (FindFirst w b); next_ := FindNext w;
     swap_ := fun x y => let st := Swap (one_of empty [x; y]) 0 1 in Done (st 0, st 1); copy_ := fun b => Done b |}.
Definition inline (has : bool) (Capacity w : nat) : api fbitset :=
  let cap := block_capacity Capacity in let e := fb_empty cap in
  let bin (f : (nat -> fbitset) -> nat -> nat -> nat -> outcome (nat -> fbitset)) x y := st <- f (one_of e [e; x; y]) 0 1 2 ;; Done (st 0) in
  {| bits := w; empty_ := e; make_ := fb_make has cap w; string_ := fb_of_string has cap w; resize := fb_Resize has cap w; size_ := fb_GetSize; count_ := fb_GetBlockCount has;
     test := fun b i => r <- fb_ref has w b i ;; fb_Bit_Test has b r; set := fun b i v => r <- fb_ref has w b i ;; fb_Bit_Set has w b r v;
     eq_ := fb_equals has; all_ := fb_TestAll has w; any_ := fb_TestAny has; none_ := fb_TestNone has;
     and_ := bin (fb_PerformsAND has cap w); or_ := bin (fb_PerformsOp has cap w N.lor); xor_ := bin (fb_PerformsOp has cap w N.lxor);
     not_ := fun x => st <- fb_PerformsNOT has cap w (one_of e [e; x]) 0 1 ;; Done (st 0);
     left_ := fb_ShiftLeft has w; right_ := fb_ShiftRight has w; reverse_ := fb_Reverse has w; append_ := fb_AppendBits has cap w; write_ := fb_Write has cap w;
     first_ := fb_FindFirst has w; next_ := fb_FindNext has w;
     swap_ := fun x y => st <- fb_Swap has cap (one_of e [x; y]) 0 1 ;; Done (st 0, st 1); copy_ := fb_copy has cap |}.

(** Nz::Bitset<UInt8> to Nz::Bitset<UInt64> *)
Example test_Bitset : map (fun w => check (plain w) [0; 1; 5; 63; 64; 142]) [8; 16; 32; 64] = repeat (Done true) 4.
Proof. vm_compute. reflexivity. Qed.
(** Nz::FixedBitset<Block, 256> *)
Example test_FixedBitset : map (fun w => check (inline false 256 w) [0; 1; 5; 63; 64; 89]) [8; 16; 32; 64] = repeat (Done true) 4.
Proof. vm_compute. reflexivity. Qed.
(** Nz::HybridBitset<Block, 32> and Nz::HybridBitset<Block, 256> *)
Example test_HybridBitset : map (fun w => check (inline true 32 w) [0; 1; 5; 63; 64; 142]) [8; 16; 32; 64] = repeat (Done true) 4.
Proof. vm_compute. reflexivity. Qed.
Example test_HybridBitset_256 : map (fun w => check (inline true 256 w) [0; 1; 5; 63; 64; 142]) [8; 16; 32; 64] = repeat (Done true) 4.
Proof. vm_compute. reflexivity. Qed.
