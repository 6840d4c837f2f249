(** * Bitsets and streams

    Bitset.inl:1467-1471: [out << bitset.ToString()].  What a [std::string] inserter does with the
    width, the fill character and the adjustment of the stream is that of the standard
    ([string.io], [ostream.formatted.reqmts]); the library has no extraction, so reading back is
    [in >> text] with a [std::string] followed by [Bitset(text)] (Bitset.inl:112-116).

    Simplifications: the locale is the classic one (space is 32 and 9 to 13); a stream that fails
    while it writes is not modelled, one that has failed before is. *)

From Coq Require Import List Arith NArith Bool.
Import ListNotations.
From Verif Require Import Base BitsetModel.

(** Characters by their codes, as in BitsetModel.v. *)
Record ostream := mkOut
  { text : list N; good : bool; width_ : nat; fill_ : N; left_ : bool }.

(** Inserting a string: padded to the width, which is then reset. *)
Definition padded (o : ostream) (s : list N) : list N :=
  let pad := repeat (fill_ o) (width_ o - length s) in
  if left_ o then s ++ pad else pad ++ s.

Definition insert (o : ostream) (s : list N) : ostream :=
  if good o
  then mkOut (text o ++ padded o s) true 0 (fill_ o) (left_ o)
  else o.

(** Bitset.inl:1468-1471; [w] is the number of bits of a block. *)
Definition insert_bitset (w : nat) (o : ostream) (b : bitset) : outcome ostream :=
  s <- ToString w b ;; Done (insert o s).

(** [out << b << sep] for each bitset, [sep] being a string literal of one character. *)
Fixpoint insert_all (w : nat) (sep : N) (o : ostream) (l : list bitset) : outcome ostream :=
  match l with
  | [] => Done o
  | b :: l => o1 <- insert_bitset w o b ;; insert_all w sep (insert o1 [sep]) l
  end.

Definition space (c : N) : bool := (c =? 32)%N || ((9 <=? c)%N && (c <=? 13)%N).

(** [in >> text]: skips spaces, takes what follows up to a space; nothing if only spaces remain. *)
Fixpoint skip_spaces (l : list N) : list N :=
  match l with
  | [] => []
  | c :: r => if space c then skip_spaces r else l
  end.

Fixpoint word (l : list N) : list N * list N :=
  match l with
  | [] => ([], [])
  | c :: r => if space c then ([], l) else let '(a, b) := word r in (c :: a, b)
  end.

Definition extract (l : list N) : option (list N * list N) :=
  match skip_spaces l with
  | [] => None
  | r => Some (word r)
  end.

(** [while (in >> text) result.emplace_back(text);] *)
Fixpoint read_all (fuel w : nat) (l : list N) : outcome (list bitset) :=
  match fuel with
  | O => Fault FDiverge
  | S fuel =>
      match extract l with
      | None => Done []
      | Some (t, r) =>
          b <- of_string w t ;; bs <- read_all fuel w r ;; Done (b :: bs)
      end
  end.
