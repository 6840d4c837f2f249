(** Specification of a bitset: a finite sequence of booleans, index 0 being bit 0.
    Nothing here mentions blocks, masks or widths. *)
From Verif Require Import Base.
Open Scope nat_scope.

(** The bit at position [i]; positions past the end are false. *)
Definition sbit (l : list bool) (i : nat) : bool := nth i l false.

Definition s_resize (l : list bool) (n : nat) (v : bool) : list bool :=
  firstn n l ++ repeat v (n - length l).
Definition s_set (l : list bool) (i : nat) (v : bool) : list bool := upd l i v.
Definition s_fill (l : list bool) (v : bool) : list bool := map (fun _ => v) l.
Definition s_flip (l : list bool) : list bool := map negb l.
(** Towards higher positions: the first [k] bits become false, the last [k] are lost. *)
Definition s_shl (l : list bool) (k : nat) : list bool := firstn (length l) (repeat false k ++ l).
(** Towards lower positions. *)
Definition s_shr (l : list bool) (k : nat) : list bool := skipn k l ++ repeat false (Nat.min k (length l)).
Definition s_uset (l : list bool) (i : nat) (v : bool) : list bool :=
  if i <? length l then upd l i v else if v then l ++ repeat false (i - length l) ++ [true] else l.
(** Pointwise operation, the shorter operand being extended with false. *)
Definition s_zip (f : bool -> bool -> bool) (a b : list bool) : list bool :=
  map (fun i => f (sbit a i) (sbit b i)) (seq 0 (Nat.max (length a) (length b))).
Definition s_count (l : list bool) : nat := count_occ Bool.bool_dec l true.
(** Positions of the true bits, in increasing order. *)
Definition s_positions (l : list bool) : list nat := filter (sbit l) (seq 0 (length l)).
(** The least true position that is at least [i]. *)
Definition s_find (l : list bool) (i : nat) : option nat := find (sbit l) (seq i (length l - i)).
Definition s_eq (a b : list bool) : Prop := forall i, sbit a i = sbit b i.
(** The number whose binary digits are the bits. *)
Fixpoint s_value (l : list bool) : N :=
  match l with [] => 0%N | b :: r => ((if b then 1 else 0) + 2 * s_value r)%N end.
(** Characters, most significant bit first. *)
Definition s_string (l : list bool) : list N := map (fun b : bool => if b then 49%N else 48%N) (rev l).
(** The bits [0, n) of a number. *)
Definition nbits (n : nat) (v : N) : list bool := map (fun i => N.testbit v (N.of_nat i)) (seq 0 n).
(** The bits of a byte buffer as a stream, least significant bit of each byte first. *)
Definition stream (mem : list N) : list bool := flat_map (nbits 8) mem.
