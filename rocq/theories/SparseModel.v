(** Model of include/NazaraUtils/SparsePtr.hpp and SparsePtr.inl.
    A SparsePtr is the address m_ptr (UInt8 pointer, 0 is null) and the int m_stride. An index of the C++ type [t] is an integer in range of [t].
    Pointer arithmetic has two readings: ISO C++, where the result must stay within the object [lo, hi] (one past the end included) and is
    undefined otherwise, and the flat 64-bit address space of the usual targets, where it wraps. *)
From Verif Require Import Base CInt.
Open Scope Z_scope.

Inductive memory := Iso (lo hi : Z) | Flat.
Definition padd (m : memory) (p off : Z) : outcome Z :=
  match m with
  | Iso lo hi => require ((lo <=? p + off) && (p + off <=? hi)) ;;; Done (p + off)
  | Flat => Done ((p + off) mod 2 ^ 64)
  end.

Record sptr := mkSptr { ptr : Z; stride : Z }.

(** SparsePtr.inl 108-112, 123-127, 137-141, 64-68, 150-154 *)
Definition sp_null : sptr := mkSptr 0 0.
Definition sp_reset (p s : Z) : sptr := mkSptr p s.
Definition sp_of_ptr (sizeofT p : Z) : sptr := sp_reset p (cast i32 sizeofT).
Definition sp_of_size (p s : Z) : outcome sptr := assert (s <=? tmax i32) ;;; Done (sp_reset p (cast i32 s)).
Definition sp_copy (q : sptr) : sptr := sp_reset (ptr q) (stride q).
(** 163-170: [static_cast<T*>(ptr.GetPtr())] converts the void pointer, so the address is unchanged. *)
Definition sp_convert (q : sptr) : sptr := sp_reset (ptr q) (stride q).
(** 201-204 *)
Definition sp_bool (q : sptr) : bool := negb (ptr q =? 0).

(** [count * m_stride]: both operands are converted to the promoted type of [count] (never narrower than int). *)
Definition offset (t : ity) (count s : Z) : outcome Z :=
  arith t (cast (promote t) count * cast (promote t) s).

(** 249-254: the address of the element. *)
Definition sp_index (m : memory) (t : ity) (q : sptr) (index : Z) : outcome Z :=
  off <- offset t index (stride q) ;; padd m (ptr q) off.
(** 265-270 *)
Definition sp_add (m : memory) (t : ity) (q : sptr) (count : Z) : outcome sptr :=
  off <- offset t count (stride q) ;; p <- padd m (ptr q) off ;; Done (sp_reset p (stride q)).
(** 281-286 *)
Definition sp_sub (m : memory) (t : ity) (q : sptr) (count : Z) : outcome sptr :=
  off <- offset t count (stride q) ;; p <- padd m (ptr q) (- off) ;; Done (sp_reset p (stride q)).
(** 296-299: std::ptrdiff_t division, the stride is converted to std::ptrdiff_t. *)
Definition sp_diff (a b : sptr) : outcome Z :=
  d <- arith i64 (ptr a - ptr b) ;; cdiv i64 d (stride a).
(** 310-316, 320-326 *)
Definition sp_add_assign (m : memory) (t : ity) (q : sptr) (count : Z) : outcome sptr :=
  off <- offset t count (stride q) ;; p <- padd m (ptr q) off ;; Done (mkSptr p (stride q)).
Definition sp_sub_assign (m : memory) (t : ity) (q : sptr) (count : Z) : outcome sptr :=
  off <- offset t count (stride q) ;; p <- padd m (ptr q) (- off) ;; Done (mkSptr p (stride q)).
(** 334-339, 367-371 *)
Definition sp_inc (m : memory) (q : sptr) : outcome sptr := p <- padd m (ptr q) (stride q) ;; Done (mkSptr p (stride q)).
Definition sp_dec (m : memory) (q : sptr) : outcome sptr := p <- padd m (ptr q) (- stride q) ;; Done (mkSptr p (stride q)).
(** 347-358, 379-390: the returned copy and the updated object. *)
Definition sp_post_inc (m : memory) (q : sptr) : outcome (sptr * sptr) := let tmp := sp_copy q in q' <- sp_inc m q ;; Done (tmp, q').
Definition sp_post_dec (m : memory) (q : sptr) : outcome (sptr * sptr) := let tmp := sp_copy q in q' <- sp_dec m q ;; Done (tmp, q').
(** 400-468 *)
Definition sp_eq (a b : sptr) : bool := ptr a =? ptr b.
Definition sp_ne (a b : sptr) : bool := negb (ptr a =? ptr b).
Definition sp_lt (a b : sptr) : bool := ptr a <? ptr b.
Definition sp_gt (a b : sptr) : bool := ptr b <? ptr a.
Definition sp_le (a b : sptr) : bool := ptr a <=? ptr b.
Definition sp_ge (a b : sptr) : bool := ptr b <=? ptr a.
