(** Model of include/NazaraUtils/TypeList.hpp and TypeList.inl.
    C++ types are the elements of a type [T] with a decision procedure [same] (std::is_same_v); a TypeList is a list of them. Each template
    specialisation is one branch of a recursive function; a template without matching specialisation, or a failing static_assert, is [None]. *)
From Verif Require Import Base CInt.
Open Scope nat_scope.

Definition npos : Z := tmax u64.
Section TypeList.
  Context {T : Type} (same : T -> T -> bool).
  (** TypeList.inl 12-16, 46-50, 79-83, 86-90, 108-112, 115-119 *)
  Definition ListAppend (l : list T) (t : T) : list T := l ++ [t].
  Definition ListConcat (l l' : list T) : list T := l ++ l'.
  Definition ListInstantiate {C} (l : list T) (Class : list T -> C) : C := Class l.
  Definition ListPrepend (l : list T) (t : T) : list T := t :: l.
  Definition ListSize (l : list T) : Z := Z.of_nat (length l).
  Definition ListTransform {U} (l : list T) (f : T -> U) : list U := map f l.
  (** 31-44 *)
  Fixpoint ListAt (l : list T) (i : nat) : option T :=
    match l, i with
    | [], _ => None
    | t :: _, O => Some t
    | _ :: r, S i' => if S i' <=? length r then ListAt r i' else None
    end.
  (** 53-76; the index is a std::size_t. *)
  Fixpoint Find (i : Z) (t : T) (l : list T) : Z :=
    match l with [] => npos | x :: r => if same t x then i else Find (cast u64 (i + 1)) t r end.
  Definition ListFind (l : list T) (t : T) : Z := Find 0 t l.
  (** TypeList.hpp 62, 68 *)
  Definition TypeListEmpty (l : list T) : bool := (ListSize l =? 0)%Z.
  Definition TypeListHas (l : list T) (t : T) : bool := negb (ListFind l t =? npos)%Z.
  (** 93-105 *)
  Fixpoint ListRebuildWithout (acc l : list T) (t : T) : list T :=
    match l with
    | [] => acc
    | x :: r => ListRebuildWithout (if negb (same x t) then acc ++ [x] else acc) r t
    end.
  Definition TypeListRemove (l : list T) (t : T) : list T := ListRebuildWithout [] l t.
  (** 122-139 *)
  Definition unique1 (acc : list T) (x : T) : list T := if negb (TypeListHas acc x) then acc ++ [x] else acc.
  Fixpoint ListUnique (acc l : list T) : option (list T) :=
    match l with
    | [] => match acc with [] => Some [] | _ => None end
    | x :: r => match r with [] => Some (unique1 acc x) | _ => ListUnique (unique1 acc x) r end
    end.
  Definition TypeListUnique (l : list T) : option (list T) := ListUnique [] l.
  (** 19-28, 142-147: the functors act on a state that contains the forwarded arguments. *)
  Section Apply.
    Context {S : Type} (Functor : T -> S -> outcome S).
    Fixpoint ListApply (l : list T) (s : S) : outcome S :=
      match l with
      | [] => Done s (* no such specialisation: the [if constexpr] avoids it *)
      | t :: r => s' <- Functor t s ;; if 0 <? length r then ListApply r s' else Done s'
      end.
    Definition TypeListApply (l : list T) (s : S) : outcome S := if negb (TypeListEmpty l) then ListApply l s else Done s.
  End Apply.
End TypeList.
