(** How Flags<E> is configured by the declarations around an enumeration E (Flags.hpp 19-57).
    Types that are not enumerations are left out, and so are functions declared after Flags<E> is first used. *)
From Coq Require Import String.
From Verif Require Import Base CInt TraitsModel.
Open Scope Z_scope.

(** A specialisation EnumAsFlags<E>: its members max and AutoFlag, if it has them. *)
Record specialisation := Specialisation { s_max : option Z; s_auto : option bool }.
(** The enumerators of E in order; the specialisation of EnumAsFlags (19-20); what EnableEnumAsNzFlags(E) and EnableAutoFlagForNzFlags(E) return when they
    are declared in the namespace of E: they are not templates and are preferred over the templates of 23-24. *)
Record declaration := Declaration { enumerators : list (string * Z); as_flags : option specialisation; enable_function : option bool; auto_function : option bool }.
Definition enumerator (d : declaration) (name : string) : option Z := option_map snd (find (fun e => String.eqb (fst e) name) (enumerators d)).

(** 26-30 *)
Definition IsEnumFlag (d : declaration) : bool :=
  match enable_function d with
  | Some true => true
  | _ => match as_flags d with Some _ => true | None => false end (* IsComplete_v<EnumAsFlags<T>> *)
  end.
(** 32-36: an enumerator does not convert to bool in a template argument ([expr.const]), so std::bool_constant<E::AutoFlag> is ill-formed. *)
Definition GetEnumAutoFlag (d : declaration) : option bool :=
  match enumerator d "AutoFlag" with
  | Some _ => None
  | None => Some (match auto_function d with Some b => b | None => true end)
  end.
(** 38-48 *)
Definition GetEnumFlagMax (d : declaration) : option Z :=
  match as_flags d with
  | Some (Specialisation (Some m) _) => Some (cast u64 m)
  | _ => option_map (fun n => cast u64 (n - 1)) (EnumValueCount true (enumerator d "Count") (enumerator d "Max"))
  end.
(** 53-57: MaxValue and AutoFlag; None: Flags<E> does not compile. *)
Definition configure (d : declaration) : option (Z * bool) :=
  if IsEnumFlag d then match GetEnumFlagMax d, GetEnumAutoFlag d with Some m, Some a => Some (m, a) | _, _ => None end else None.
