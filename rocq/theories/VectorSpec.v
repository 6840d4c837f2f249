(** What a vector is supposed to do: operations on a plain sequence, bounded by a capacity or not. *)
From Verif Require Export Base.

Inductive vop (A : Type) :=
  PushCopy (a : A) | PushMove (a : A) | EmplaceBack (a : A) | Insert (i : nat) (a : A) | InsertMove (i : nat) (a : A)
| Erase (i : nat) | EraseRange (i j : nat) | PopBack | Resize (n : nat) | ResizeWith (n : nat) (a : A) | Reserve (n : nat) | Clear | SetAt (i : nat) (a : A).
Arguments PushCopy {A}. Arguments PushMove {A}. Arguments EmplaceBack {A}. Arguments Insert {A}. Arguments InsertMove {A}.
Arguments Erase {A}. Arguments EraseRange {A}. Arguments PopBack {A}. Arguments Resize {A}. Arguments ResizeWith {A}.
Arguments Reserve {A}. Arguments Clear {A}. Arguments SetAt {A}.

(** A capacity, or none. *)
Definition fits (bound : option nat) (n : nat) : bool := match bound with None => true | Some c => n <=? c end.

(** The sequence after one operation, and the position returned by insert / erase. *)
Definition s_apply {A} (bound : option nat) (dflt : A) (l : list A) (o : vop A) : outcome (list A * option nat) :=
  match o with
  | PushCopy a | PushMove a | EmplaceBack a => assert (fits bound (length l + 1)) ;;; Done (l ++ [a], None)
  | Insert i a | InsertMove i a => assert ((i <=? length l) && fits bound (length l + 1)) ;;; Done (firstn i l ++ a :: skipn i l, Some i)
  | Erase i => assert (i <? length l) ;;; Done (firstn i l ++ skipn (i + 1) l, Some i)
  | EraseRange i j => assert ((i <=? j) && (j <=? length l)) ;;; Done (firstn i l ++ skipn j l, Some i)
  | PopBack => assert (0 <? length l) ;;; Done (removelast l, None)
  | Resize n => assert (fits bound n) ;;; Done (firstn n l ++ repeat dflt (n - length l), None)
  | ResizeWith n a => assert (fits bound n) ;;; Done (firstn n l ++ repeat a (n - length l), None)
  | Reserve n => assert (fits bound n) ;;; Done (l, None)
  | Clear => Done ([], None)
  | SetAt i a => assert (i <? length l) ;;; Done (upd l i a, None)
  end.

(** A whole history: the final sequence and everything the operations returned. *)
Fixpoint s_run {A} (bound : option nat) (dflt : A) (l : list A) (ops : list (vop A)) : outcome (list A * list (option nat)) :=
  match ops with
  | [] => Done (l, [])
  | o :: ops => ' (l, r) <- s_apply bound dflt l o ;; ' (l, rs) <- s_run bound dflt l ops ;; Done (l, r :: rs)
  end.
