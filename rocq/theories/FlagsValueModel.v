(** Model of Flags(BitField value), Flags.inl 23-27, and of the conversion of an integer to its parameter. *)
From Verif Require Import Base CInt MathModel FlagsModel.
Open Scope Z_scope.

Definition flags_of_value (mx z : Z) : Z := cast (BitField mx) z.
