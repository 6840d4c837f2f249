(** Model of include/NazaraUtils/EnumArray.hpp and EnumArray.inl (and EnumValueCount of TypeTraits.hpp 35-57).
    An enumeration is its underlying type and the value of its last enumerator; the array is the contents of std::array.
    A reference to an element is its position. operator+ and operator- of the iterator do not compile (EnumArray.inl 99-108: no
    conversion from an array pointer to kv_tag) and are not modelled. *)
From Verif Require Import Base CInt.
Open Scope Z_scope.

(** EnumValueCount, with E::Max (TypeTraits.hpp 50-55) or E::Count (42-47). *)
Definition count_of_max (u : ity) (m : Z) : outcome Z := n <- arith u64 (cast u64 m + 1) ;; Done n.
Definition count_of_count (u : ity) (c : Z) : Z := cast u64 c.

Section Array.
  Context {V : Type} (u : ity).
  (** The array object: its address (an index that identifies it) and its elements. *)
  Record iterator := mkIt { m_array : nat; m_index : Z }.
  (** EnumArray.inl 21-31: operator[](E) designates the element [UnderlyingCast(entry)] *)
  Definition at_entry (a : list V) (e : Z) : outcome nat :=
    let i := Z.to_nat (cast u64 e) in require (Nat.ltb i (length a)) ;;; Done i.
  (** 34-56; the size converts to difference_type. *)
  Definition kv_begin (this : nat) : iterator := mkIt this 0.
  Definition kv_end (this : nat) (a : list V) : iterator := mkIt this (cast i64 (Z.of_nat (length a))).
  (** 67-97, 110-122 *)
  Definition advance (it : iterator) (n : Z) : outcome iterator := i <- arith i64 (m_index it + n) ;; Done (mkIt (m_array it) i).
  Definition pre_incr (it : iterator) : outcome iterator := advance it 1.
  Definition post_incr (it : iterator) : outcome (iterator * iterator) := it' <- pre_incr it ;; Done (it, it').
  Definition pre_decr (it : iterator) : outcome iterator := advance it (-1).
  Definition post_decr (it : iterator) : outcome (iterator * iterator) := it' <- pre_decr it ;; Done (it, it').
  Definition add_assign (it : iterator) (n : Z) : outcome iterator := advance it n.
  Definition sub_assign (it : iterator) (n : Z) : outcome iterator := i <- arith i64 (m_index it - n) ;; Done (mkIt (m_array it) i).
  (** 124-129: the key and the element. *)
  Definition deref (a : list V) (it : iterator) : outcome (Z * nat) :=
    let key := cast u (m_index it) in p <- at_entry a key ;; Done (key, p).
  (** 131-136 *)
  Definition subscript (a : list V) (it : iterator) (n : Z) : outcome (Z * nat) :=
    i <- arith i64 (m_index it + n) ;; let key := cast u i in p <- at_entry a key ;; Done (key, p).
  (** 138-178 *)
  Definition compare (f : Z -> Z -> bool) (x y : iterator) : outcome bool :=
    assert (Nat.eqb (m_array x) (m_array y)) ;;; Done (f (m_index x) (m_index y)).
  Definition it_eq := compare Z.eqb.
  Definition it_ne := compare (fun x y => negb (x =? y)).
  Definition it_lt := compare Z.ltb.
  Definition it_le := compare Z.leb.
  Definition it_gt := compare Z.gtb.
  Definition it_ge := compare Z.geb.
End Array.

(** [for (auto&& [key, value] : array.iter_kv()) body], the body works on a state that contains the array. *)
Section Loop.
  Context {V S : Type} (u : ity) (this : nat) (array : S -> list V) (body : Z -> nat -> S -> outcome S).
  Fixpoint kv_loop (fuel : nat) (it last : iterator) (s : S) : outcome S :=
    c <- it_ne it last ;;
    if c then
      match fuel with
      | O => Fault FDiverge
      | Datatypes.S fuel' =>
        ' (key, p) <- deref u (array s) it ;; s' <- body key p s ;; it' <- pre_incr it ;; kv_loop fuel' it' last s'
      end
    else Done s.
  Definition iterate (fuel : nat) (s : S) : outcome S := kv_loop fuel (kv_begin this) (kv_end this (array s)) s.
End Loop.
