(** Model of AssertFailure, AssertFailureWithSource, Assert and AssertWithSource (Assert.inl 13-103) and of the arguments NazaraAssert and
    NazaraAssertMsg give them (Assert.hpp 14-15): what is written to stderr and how the call ends.
    std::fprintf: the conversions s, c, d, u and the double percent; a conversion without argument, with an argument of another type, or any other one is
    undefined here. An argument of type unsigned int is accepted by d when its value fits in int ([va.arg] in C). *)
From Coq Require Export String Ascii.
From Coq Require Import DecimalString.
From Verif Require Export Base.
Open Scope string_scope.
Open Scope Z_scope.

Definition decimal (z : Z) : string := NilZero.string_of_int (Z.to_int z).

(** Arguments after the default promotions. *)
Inductive argument := AText (s : string) | AInt (z : Z) | AUnsigned (z : Z).

Definition convert (c : ascii) (a : argument) : outcome string :=
  match a with
  | AText s => if (c =? "s")%char then Done s else Fault FUB
  | AInt z =>
    if (c =? "d")%char then Done (decimal z)
    else if (c =? "u")%char then (if 0 <=? z then Done (decimal z) else Fault FUB)
    else if (c =? "c")%char then Done (String (ascii_of_N (Z.to_N (z mod 256))) EmptyString)
    else Fault FUB
  | AUnsigned z =>
    if (c =? "u")%char then Done (decimal z)
    else if (c =? "d")%char then (if z <? 2 ^ 31 then Done (decimal z) else Fault FUB)
    else Fault FUB
  end.

(** std::fprintf: the characters written. *)
Fixpoint fprintf (format : string) (args : list argument) : outcome string :=
  match format with
  | EmptyString => Done EmptyString
  | String c rest =>
    if (c =? "%")%char then
      match rest with
      | EmptyString => Fault FUB
      | String k rest =>
        if (k =? "%")%char then r <- fprintf rest args ;; Done (String k r)
        else match args with
             | [] => Fault FUB
             | a :: args => t <- convert k a ;; r <- fprintf rest args ;; Done (t ++ r)
             end
      end
    else r <- fprintf rest args ;; Done (String c r)
  end.
Definition newline : string := String (ascii_of_nat 10) EmptyString.
Definition fputs (s : string) : outcome string := Done s.

(** How a call ends: it returns, throws AssertionFailed (in a constant expression: the program is ill-formed), or stops the program. *)
Inductive ending := Returns | ThrowsAssertionFailed | Aborts.
Record result := Result { output : string; ends : ending }.
Definition constant (dummy : bool) : outcome result := Done (Result "" (if negb dummy then ThrowsAssertionFailed else Returns)).

(** 13-28 *)
Definition AssertFailure0 (ce dummy : bool) : outcome result :=
  if ce then constant dummy else o <- fputs ("assertion failed" ++ newline) ;; Done (Result o Aborts).
(** 30-56 *)
Definition AssertFailure (ce dummy : bool) (message : string) (args : list argument) : outcome result :=
  if ce then constant dummy
  else match args with
       | _ :: _ => a <- fputs "assertion failed: " ;; b <- fprintf message args ;; c <- fputs newline ;; Done (Result (a ++ b ++ c) Aborts)
       | [] => o <- fprintf ("assertion failed: %s" ++ newline) [AText message] ;; Done (Result o Aborts)
       end.
(** 58-83 *)
Definition AssertFailureWithSource (ce dummy : bool) (file : string) (line : Z) (message : string) (args : list argument) : outcome result :=
  if ce then constant dummy
  else match args with
       | _ :: _ =>
         a <- fputs "assertion failed: " ;;
         b <- fprintf message args ;;
         c <- fprintf " at %s:%d: " [AText file; AUnsigned line] ;;
         d <- fputs newline ;; Done (Result (a ++ b ++ c ++ d) Aborts)
       | [] => o <- fprintf ("assertion failed: %s at %s:%d" ++ newline) [AText message; AText file; AUnsigned line] ;; Done (Result o Aborts)
       end.
(** 86-103 *)
Definition Assert0 (ce condition : bool) : outcome result := if negb condition then AssertFailure0 ce false else Done (Result "" Returns).
Definition AssertMessage (ce condition : bool) (message : string) (args : list argument) : outcome result :=
  if negb condition then AssertFailure ce false message args else Done (Result "" Returns).
Definition AssertWithSource (ce condition : bool) (file : string) (line : Z) (message : string) (args : list argument) : outcome result :=
  if negb condition then AssertFailureWithSource ce false file line message args else Done (Result "" Returns).

(** Assert.hpp 14-15 and 17-18; [text] is #cond, the arguments of the call are evaluated only when the condition fails. *)
Definition NazaraAssert (enabled ce condition : bool) (file : string) (line : Z) (text : string) : outcome result :=
  if enabled then (if negb condition then AssertFailureWithSource ce false file line text [] else Done (Result "" Returns)) else Done (Result "" Returns).
Definition NazaraAssertMsg (enabled ce condition : bool) (file : string) (line : Z) (message : string) (args : list argument) : outcome result :=
  if enabled then (if negb condition then AssertFailureWithSource ce false file line message args else Done (Result "" Returns)) else Done (Result "" Returns).
