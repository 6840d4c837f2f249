(** Functions on numbers, the iterator of Flags, SparsePtr and PrivateImpl::Emplace as compiled without assertions. *)
From Verif Require Import Base CInt MathModel FlagsModel SparseModel MovableModel PimplModel.
Open Scope Z_scope.

(** [T(1) << bit] is computed in the promoted type and undefined for a negative index or one of at least its width. *)
Definition shiftable (t : ity) (bit : Z) : bool := (0 <=? bit) && (bit <? wid (promote t)).
(** MathUtils.inl 303-308, 519-524, 555-560, 572-577 *)
Definition rClearBit (t : ity) (number bit : Z) : outcome Z := require (shiftable t bit) ;;; Done (cast t (Z.land number (Z.lnot (Z.shiftl 1 bit)))).
Definition rSetBit (t : ity) (number bit : Z) : outcome Z := require (shiftable t bit) ;;; Done (cast t (Z.lor number (Z.shiftl 1 bit))).
Definition rTestBit (t : ity) (number bit : Z) : outcome bool :=
  require (shiftable t bit) ;;; Done (negb (Z.land number (cast (promote t) (Z.shiftl 1 bit)) =? 0)).
Definition rToggleBit (t : ity) (number bit : Z) : outcome Z := require (shiftable t bit) ;;; Done (cast t (Z.lxor number (Z.shiftl 1 bit))).

(** 590-614, 798-803 *)
Definition rIsPow2 (t : ity) (value : Z) : outcome bool := v1 <- arith t (value - 1) ;; Done (Z.land value v1 =? 0).
Definition rAlign (t : ity) (offset alignment : Z) : outcome Z :=
  s <- arith t (offset + alignment) ;;
  s1 <- arith t (s - 1) ;;
  q <- cdiv t s1 alignment ;;
  m <- arith t (q * alignment) ;;
  Done (cast t m).
Definition rAlignPow2 (t : ity) (offset alignment : Z) : outcome Z :=
  s <- arith t (offset + alignment) ;;
  s1 <- arith t (s - 1) ;;
  a1 <- arith t (alignment - 1) ;;
  Done (cast t (Z.land s1 (cast (promote t) (Z.lnot a1)))).

(** Flags.inl 306-313, 328-336: [bitIndex] is an unsigned int, so 0 - 1 wraps. *)
Definition r_iter_next (mx rem : Z) : outcome Z :=
  let bitIndex := Z.of_nat (FindFirstBit_rt (BitField mx) rem) in
  rClearBit (BitField mx) rem (cast (BitField mx) (cast u32 (bitIndex - 1))).
Definition r_iter_deref (mx : Z) (auto : bool) (rem : Z) : outcome Z :=
  let bitIndex := Z.of_nat (FindFirstBit_rt (BitField mx) rem) in
  if auto then Done (cast u32 (bitIndex - 1)) else shl u32 1 (cast u32 (bitIndex - 1)).

(** SparsePtr.inl 64-68 *)
Definition r_sp_of_size (p s : Z) : sptr := sp_reset p (cast i32 s).

(** PrivateImpl.inl 144-152 *)
Definition rEmplace {T} (h : nat) (v : T) (t : bool) (s : state T) : outcome (state T * ending) :=
  p <- live s h ;;
  if t then Done (s, Thrown) else let '(s1, a) := new s v in Done (set_handle s1 h (Some (ptr_assign_value p (Some a))), Normal).
Definition r_pimpl_step {T} (assignable : bool) (broken : T -> T -> T) (o : op T) (s : state T) : outcome (state T * ending) :=
  match o with OEmplace h v t => rEmplace h v t s | _ => step assignable broken o s end.
