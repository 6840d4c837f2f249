(** Expressions over the iterators of the library: EnumArrayKvIterator (EnumArray.hpp 52-101), Bitset::BitIterator (Bitset.hpp 186-215), Flags::iterator
    (Flags.hpp 104-133), MemoryPoolIterator (MemoryPool.hpp 93-128), SparsePtr (SparsePtr.hpp 18-75 and std::iterator_traits, SparsePtr.inl 469-479).
    A class is the list of its operators, each with the qualifiers and the return type the header gives it; an operator that is not declared, or whose body does
    not compile (EnumArray.inl 99-108: no conversion from a pointer to kv_tag; 181-185 calls them), is missing. Which expressions compile and what kind of value
    they give is overload resolution over that list ([over.match.oper]); the operands are iterators and integers, so there is one candidate per operator.
    Simplified: element types are opaque; integers are of the difference type; operands are evaluated from left to right. *)
From Verif Require Import Base CInt EnumArrayModel SparseModel.
Open Scope Z_scope.

Inductive unary := PreInc | PostInc | PreDec | PostDec | Deref | Arrow.
Inductive byn := AddAssign | SubAssign | Plus | Minus | PlusLeft | Index.
Inductive binary := Diff | Eq | Ne | Lt | Gt | Le | Ge.
(** [Var n]: the iterator variable [n]. [PlusLeft] is n + iterator. *)
Inductive expr :=
| Var (n : nat)
| New
| Un (o : unary) (e : expr)
| ByN (o : byn) (e : expr) (n : Z)
| Bin (o : binary) (e f : expr).

(** Types of expressions: an iterator that can be changed, one that cannot, a temporary iterator, and what operators return. *)
Inductive ty := Iter | ConstIter | TempIter | DiffT | Bool | Ref | ConstRef | Prvalue | Pointer.
Definition is_iter (t : ty) : bool := match t with Iter | ConstIter | TempIter => true | _ => false end.

(** [const]: the member function is const (or the operator takes its operand by reference to const). [named]: a built-in operator that needs an lvalue. *)
Record operator := Op { const : bool; named : bool; result : ty }.
Record class := Class { un : unary -> option operator; by_n : byn -> option operator; bin : binary -> option operator; default : bool }.

Definition applies (o : operator) (t : ty) : option ty :=
  match t with
  | Iter => Some (result o)
  | ConstIter => if const o then Some (result o) else None
  | TempIter => if named o then None else Some (result o)
  | _ => None
  end.
Section Typing.
  Variable c : class.
  (** Is the variable const? *)
  Variable constant : nat -> bool.
  Fixpoint type_of (e : expr) : option ty :=
    match e with
    | Var n => Some (if constant n then ConstIter else Iter)
    | New => if default c then Some TempIter else None
    | Un o e => match type_of e, un c o with Some t, Some m => applies m t | _, _ => None end
    | ByN o e _ => match type_of e, by_n c o with Some t, Some m => applies m t | _, _ => None end
    | Bin o e f =>
      match type_of e, type_of f, bin c o with
      | Some t, Some t', Some m => if is_iter t' then applies m t else None
      | _, _, _ => None
      end
    end.
End Typing.

(** Member types of the class: difference_type, value_type, pointer, reference, iterator_category. *)
Inductive category := Input | Forward | Bidirectional | RandomAccess.
Record types := Types { has_difference : bool; has_value : bool; has_pointer : bool; reference : option ty; tag : option category;
  specialised : bool (* std::iterator_traits is specialised for the class and has all five *); members : bool (* the value type is a class *) }.

Definition modify := Some (Op false false Iter).
Definition copy := Some (Op false false TempIter).
Definition compare := Some (Op true false Bool).

(** EnumArray.hpp 69-97. The value is a pair (65). *)
Definition EnumKv : class := Class
  (fun o => match o with PreInc | PreDec => modify | PostInc | PostDec => copy | Deref => Some (Op true false Prvalue) | Arrow => None end)
  (fun o => match o with AddAssign | SubAssign => copy | Index => Some (Op true false Prvalue) | Plus | Minus | PlusLeft => None end)
  (fun o => match o with Diff => None | _ => compare end) false.
Definition EnumKv_types : types := Types true true false None (Some RandomAccess) false true.
(** Bitset.hpp 194-208; Flags.hpp 112-127. The values are an integer and an enumerator. *)
Definition InputIter (r : ty) : class := Class
  (fun o => match o with PreInc => modify | PostInc => copy | Deref => Some (Op true false r) | _ => None end)
  (fun _ => None) (fun o => match o with Eq | Ne => compare | _ => None end) false.
Definition Bits : class := InputIter Prvalue.
Definition Bits_types : types := Types false true false None (Some Input) false false.
Definition FlagsIter : class := InputIter Prvalue.
Definition FlagsIter_types : types := Types true true false None (Some Input) false false.
(** MemoryPool.hpp 101-120; [m]: is the type of the entries a class? *)
Definition Pool : class := InputIter Ref.
Definition Pool_types (m : bool) : types := Types true true true (Some Ref) (Some Input) false m.
(** SparsePtr.hpp 24-70; operator[] and the others are templates over the type of the count. *)
Definition Sparse : class := Class
  (fun o => match o with PreInc | PreDec => modify | PostInc | PostDec => copy | Deref => Some (Op true false Ref) | Arrow => Some (Op true false Pointer) end)
  (fun o => match o with AddAssign | SubAssign => modify | Plus | Minus => Some (Op true false TempIter) | Index => Some (Op true false Ref) | PlusLeft => None end)
  (fun o => match o with Diff => Some (Op true false DiffT) | _ => compare end) true.
Definition Sparse_types (m : bool) : types := Types true true true (Some ConstRef) (Some RandomAccess) true m.
(** [T*], for comparison. *)
Definition Ptr : class := Class
  (fun o => match o with PreInc | PreDec => Some (Op false true Iter) | PostInc | PostDec => Some (Op false true TempIter) | Deref => Some (Op true false Ref) | Arrow => Some (Op true false Pointer) end)
  (fun o => match o with AddAssign | SubAssign => Some (Op false true Iter) | Plus | Minus | PlusLeft => Some (Op true false TempIter) | Index => Some (Op true false Ref) end)
  (fun o => match o with Diff => Some (Op true false DiffT) | _ => compare end) true.
Definition Ptr_types (m : bool) : types := Types true true true (Some Ref) (Some RandomAccess) true m.

(** [iterator.traits]: does std::iterator_traits have members? Until C++17 if all five member types exist. From C++20 on (P0896) pointer is not needed, and a
    class without some of them has its traits deduced if it has difference_type (or a difference) and value_type and its iterators can be compared, read
    and incremented (cpp17-input-iterator). *)
Definition has_traits (cpp20 : bool) (c : class) (t : types) : bool :=
  specialised t || (has_difference t && has_value t && (has_pointer t || cpp20) && (if reference t then true else false) && (if tag t then true else false))
  || (cpp20 && (has_difference t || (if bin c Diff then true else false)) && has_value t &&
      match bin c Eq, bin c Ne, un c PreInc, un c PostInc, un c Deref with Some _, Some _, Some _, Some _, Some _ => true | _, _, _, _, _ => false end).

(** Evaluation. The operators of a class over its representation; the iterator variables are a store. *)
Inductive value (I V : Type) := VIter (it : I) (object : option nat) | VDiff (z : Z) | VBool (b : bool) | VElem (v : V).
Arguments VIter {I V}. Arguments VDiff {I V}. Arguments VBool {I V}. Arguments VElem {I V}.
Record semantics (I V : Type) := Semantics { s_inc : I -> outcome I; s_dec : I -> outcome I; s_add : I -> Z -> outcome I; s_sub : I -> Z -> outcome I;
  s_plus : I -> Z -> outcome I; s_minus : I -> Z -> outcome I;  s_deref : I -> outcome V; s_index : I -> Z -> outcome V; s_diff : I -> I -> outcome Z; s_compare : binary -> I -> I -> outcome bool }.
Arguments s_inc {I V}. Arguments s_dec {I V}. Arguments s_add {I V}. Arguments s_sub {I V}. Arguments s_plus {I V}. Arguments s_minus {I V}. Arguments s_deref {I V}. Arguments s_index {I V}. Arguments s_diff {I V}. Arguments s_compare {I V}.
Section Eval.
  Context {I V : Type} (c : class) (s : semantics I V).
  Definition the_iter (v : value I V) : outcome (I * option nat) := match v with VIter it o => Done (it, o) | _ => Fault FTerminate end.
  (** The object the operator was applied to, changed; a temporary is lost. *)
  Definition store (l : list I) (o : option nat) (it : I) : list I := match o with Some n => upd l n it | None => l end.
  Definition returned (m : option operator) (it : I) (o : option nat) : value I V :=
    match m with Some (Op _ _ Iter) => VIter it o | _ => VIter it None end.
  Fixpoint eval (e : expr) (l : list I) : outcome (value I V * list I) :=
    match e with
    | Var n => it <- vget l n ;; Done (VIter it (Some n), l)
    | New => Fault FTerminate
    | Un o e =>
      ' (v, l) <- eval e l ;; ' (it, obj) <- the_iter v ;;
      match o with
      | PreInc => it' <- s_inc s it ;; Done (returned (un c o) it' obj, store l obj it')
      | PreDec => it' <- s_dec s it ;; Done (returned (un c o) it' obj, store l obj it')
      | PostInc => it' <- s_inc s it ;; Done (VIter it None, store l obj it')
      | PostDec => it' <- s_dec s it ;; Done (VIter it None, store l obj it')
      | Deref | Arrow => x <- s_deref s it ;; Done (VElem x, l)
      end
    | ByN o e n =>
      ' (v, l) <- eval e l ;; ' (it, obj) <- the_iter v ;;
      match o with
      | AddAssign => it' <- s_add s it n ;; Done (returned (by_n c o) it' obj, store l obj it')
      | SubAssign => it' <- s_sub s it n ;; Done (returned (by_n c o) it' obj, store l obj it')
      | Plus | PlusLeft => it' <- s_plus s it n ;; Done (VIter it' None, l)
      | Minus => it' <- s_minus s it n ;; Done (VIter it' None, l)
      | Index => x <- s_index s it n ;; Done (VElem x, l)
      end
    | Bin o e f =>
      ' (v, l) <- eval e l ;; ' (w, l) <- eval f l ;; ' (it, p) <- the_iter v ;; ' (jt, q) <- the_iter w ;;
      (* an iterator bound by reference is read when the operator is called *)
      let at_call (it : I) (p : option nat) := match p with Some n => match nth_error l n with Some x => x | None => it end | None => it end in
      match o with
      | Diff => z <- s_diff s (at_call it p) (at_call jt q) ;; Done (VDiff z, l)
      | _ => b <- s_compare s o (at_call it p) (at_call jt q) ;; Done (VBool b, l)
      end
    end.
End Eval.

(** The operators of EnumArrayKvIterator and SparsePtr, from their models. *)
Definition enum_semantics {A : Type} (u : ity) (a : list A) : semantics iterator (Z * nat) :=
  Semantics _ _ (fun it => pre_incr it) (fun it => pre_decr it) (fun it n => add_assign it n) (fun it n => sub_assign it n) (fun _ _ => Fault FTerminate) (fun _ _ => Fault FTerminate) (fun it => deref u a it) (fun it n => subscript u a it n)
    (fun _ _ => Fault FTerminate)
    (fun o x y => match o with Eq => it_eq x y | Ne => it_ne x y | Lt => it_lt x y | Gt => it_gt x y | Le => it_le x y | Ge => it_ge x y | Diff => Fault FTerminate end).
Definition sparse_semantics (m : memory) : semantics sptr Z :=
  Semantics _ _ (sp_inc m) (sp_dec m) (sp_add_assign m i64) (sp_sub_assign m i64) (sp_add m i64) (sp_sub m i64) (fun q => Done (ptr q)) (sp_index m i64) sp_diff
    (fun o x y => match o with Eq => Done (sp_eq x y) | Ne => Done (sp_ne x y) | Lt => Done (sp_lt x y) | Gt => Done (sp_gt x y) | Le => Done (sp_le x y) | Ge => Done (sp_ge x y) | Diff => Fault FTerminate end).
