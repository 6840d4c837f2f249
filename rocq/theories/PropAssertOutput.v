(** Property C109: what a failed assertion prints, and that it stops the program. *)
From Verif Require Import AssertOutputModel.
Open Scope string_scope.
Open Scope Z_scope.

(** ** Specification *)
(** A message is a sequence of plain text and values; the format and the arguments that stand for it. *)
Inductive piece := Plain (s : string) | Text (s : string) | Int (z : Z) | Unsigned (z : Z).
Fixpoint escape (s : string) : string :=
  match s with EmptyString => EmptyString | String c s => if (c =? "%")%char then String c (String c (escape s)) else String c (escape s) end.
Fixpoint format_of (l : list piece) : string :=
  match l with
  | [] => ""
  | Plain s :: l => escape s ++ format_of l
  | Text _ :: l => "%s" ++ format_of l
  | Int _ :: l => "%d" ++ format_of l
  | Unsigned _ :: l => "%u" ++ format_of l
  end.
Fixpoint args_of (l : list piece) : list argument :=
  match l with [] => [] | Plain _ :: l => args_of l | Text s :: l => AText s :: args_of l | Int z :: l => AInt z :: args_of l | Unsigned z :: l => AUnsigned z :: args_of l end.
Fixpoint shown (l : list piece) : string :=
  match l with [] => "" | Plain s :: l => s ++ shown l | Text s :: l => s ++ shown l | Int z :: l => decimal z ++ shown l | Unsigned z :: l => decimal z ++ shown l end.
(** A line feed, character 10. *)
Definition line_end : string := "
".
Definition location (file : string) (line : Z) : string := " at " ++ file ++ ":" ++ decimal line.

Lemma fprintf_escape s rest args : fprintf (escape s ++ rest) args = (r <- fprintf rest args ;; Done (s ++ r)).
Proof.
  induction s as [|c s IH]; cbn [escape append]; [destruct (fprintf rest args); reflexivity|].
  destruct (c =? "%")%char eqn:E; cbn [append fprintf]; rewrite ?E, IH; destruct (fprintf rest args); reflexivity.
Qed.
Lemma fprintf_plain s rest args : (forall c, In c (list_ascii_of_string s) -> c <> "%"%char) -> fprintf (s ++ rest) args = (r <- fprintf rest args ;; Done (s ++ r)).
Proof.
  intros H. replace s with (escape s) at 1; [apply fprintf_escape|]. induction s as [|c s IH]; [reflexivity|]. cbn [escape]. cbn in H.
  destruct (Ascii.eqb_spec c "%"%char) as [E|E]; [destruct (H c (or_introl eq_refl) E)|]. rewrite IH; [reflexivity|]. intros d I. apply H. now right.
Qed.
Lemma fprintf_pieces l : fprintf (format_of l) (args_of l) = Done (shown l).
Proof.
  induction l as [|[s|s|z|z] l IH]; cbn [format_of args_of shown]; [reflexivity| | | |].
  - now rewrite fprintf_escape, IH.
  - cbn. now rewrite IH.
  - cbn. now rewrite IH.
  - cbn. now rewrite IH.
Qed.
Lemma append_assoc (a b c : string) : (a ++ b) ++ c = a ++ b ++ c.
Proof. induction a as [|x a IH]; cbn; [reflexivity|now rewrite IH]. Qed.
Lemma append_nil (a : string) : a ++ "" = a.
Proof. induction a as [|x a IH]; cbn; [reflexivity|now rewrite IH]. Qed.

(** ** C109 *)
(** Without arguments the message, or the text of the condition, is printed as it is, percent signs included, with file and line. *)
Theorem C109_message : forall file line message, 0 <= line < 2 ^ 31 ->
  AssertFailureWithSource false false file line message [] = Done (Result ("assertion failed: " ++ message ++ location file line ++ line_end) Aborts).
Proof.
  intros file line message H. unfold AssertFailureWithSource, location. cbn. destruct (Z.ltb_spec line (2 ^ 31)) as [L|L]; [|lia]. cbn. rewrite ?append_assoc. cbn. rewrite ?append_assoc. reflexivity.
Qed.
Theorem C109_condition : forall file line text, 0 <= line < 2 ^ 31 ->
  NazaraAssert true false false file line text = Done (Result ("assertion failed: " ++ text ++ location file line ++ line_end) Aborts).
Proof. intros file line text H. apply C109_message. exact H. Qed.
(** With arguments every format made of text and values prints these. *)
Theorem C109_arguments : forall file line l, 0 <= line < 2 ^ 31 -> args_of l <> [] ->
  AssertFailureWithSource false false file line (format_of l) (args_of l) =
  Done (Result ("assertion failed: " ++ shown l ++ location file line ++ ": " ++ line_end) Aborts).
Proof.
  intros file line l H N. unfold AssertFailureWithSource, location. pose proof (fprintf_pieces l) as P. destruct (args_of l) as [|a r]; [contradiction|]. rewrite P. cbn.
  destruct (Z.ltb_spec line (2 ^ 31)) as [L|L]; [|lia]. cbn. rewrite ?append_assoc. cbn. rewrite ?append_assoc. reflexivity.
Qed.
Theorem C109_without_source : forall l, args_of l <> [] ->
  AssertFailure false false (format_of l) (args_of l) = Done (Result ("assertion failed: " ++ shown l ++ line_end) Aborts) /\
  (forall message, AssertFailure false false message [] = Done (Result ("assertion failed: " ++ message ++ line_end) Aborts)) /\
  AssertFailure0 false false = Done (Result ("assertion failed" ++ line_end) Aborts).
Proof.
  intros l N. split; [|split; [intros message|]; reflexivity]. unfold AssertFailure. pose proof (fprintf_pieces l) as P. destruct (args_of l) as [|a r]; [contradiction|]. rewrite P. reflexivity.
Qed.
(** A condition that fails never goes on: at run time the program stops, in a constant expression AssertionFailed is thrown. *)
Theorem C109_stops : forall ce file line message args r,
  AssertWithSource ce false file line message args = Done r \/ AssertMessage ce false message args = Done r \/ Assert0 ce false = Done r \/
  NazaraAssertMsg true ce false file line message args = Done r \/ NazaraAssert true ce false file line message = Done r ->
  ends r = if ce then ThrowsAssertionFailed else Aborts.
Proof.
  assert (A : forall ce file line message args r, AssertFailureWithSource ce false file line message args = Done r -> ends r = if ce then ThrowsAssertionFailed else Aborts).
  { intros [] file line message args r; unfold AssertFailureWithSource; [intros [= <-]; reflexivity|]. destruct args as [|a args].
    - destruct (fprintf _ _); cbn [bind]; [|discriminate]. intros [= <-]. reflexivity.
    - cbn [fputs bind]. destruct (fprintf message _); cbn [bind]; [|discriminate]. destruct (fprintf " at %s:%d: " _); cbn [bind]; [|discriminate]. intros [= <-]. reflexivity. }
  intros ce file line message args r [H|[H|[H|[H|H]]]].
  - apply A in H. exact H.
  - unfold AssertMessage, AssertFailure in H. cbn [negb] in H. destruct ce; [injection H as <-; reflexivity|]. destruct args as [|a args].
    + destruct (fprintf _ _); cbn [bind] in H; [|discriminate]. injection H as <-. reflexivity.
    + cbn [fputs bind] in H. destruct (fprintf message _); cbn [bind] in H; [|discriminate]. injection H as <-. reflexivity.
  - unfold Assert0, AssertFailure0 in H. destruct ce; injection H as <-; reflexivity.
  - apply A in H. exact H.
  - apply A in H. exact H.
Qed.
(** A condition that holds, or a disabled assertion, prints nothing and goes on, whatever the message. *)
Theorem C109_silent : forall ce c file line message args,
  AssertWithSource ce true file line message args = Done (Result "" Returns) /\ AssertMessage ce true message args = Done (Result "" Returns) /\ Assert0 ce true = Done (Result "" Returns) /\
  NazaraAssertMsg true ce true file line message args = Done (Result "" Returns) /\ NazaraAssertMsg false ce c file line message args = Done (Result "" Returns) /\
  NazaraAssert true ce true file line message = Done (Result "" Returns) /\ NazaraAssert false ce c file line message = Done (Result "" Returns).
Proof. repeat split. Qed.

(** ** What does not hold *)
(** Adding an argument turns the message into a format: a percent sign that is none of its conversions is undefined. *)
Theorem C109_percent_refuted : forall file line a rest message, (forall c, In c (list_ascii_of_string message) -> c <> "%"%char) ->
  AssertFailureWithSource false false file line (message ++ "%") (a :: rest) = Fault FUB.
Proof. intros file line a rest message H. unfold AssertFailureWithSource. cbn [fputs bind]. rewrite fprintf_plain by exact H. reflexivity. Qed.
(** A line number above INT_MAX (from #line) is printed with %d. *)
Theorem C109_line_refuted : forall file line message, 2 ^ 31 <= line -> AssertFailureWithSource false false file line message [] = Fault FUB.
Proof. intros file line message H. unfold AssertFailureWithSource. cbn. destruct (Z.ltb_spec line (2 ^ 31)) as [L|L]; [lia|]. reflexivity. Qed.

(** ** Non-vacuity *)
Example C109_case : AssertFailureWithSource false false "a.cpp" 12 "x % 2 == 0" [] = Done (Result ("assertion failed: x % 2 == 0 at a.cpp:12" ++ line_end) Aborts).
Proof. reflexivity. Qed.
Example C109_values : format_of [Plain "100% of "; Text "it"; Plain " is "; Int (-5)] = "100%% of %s is %d" /\
  AssertFailureWithSource false false "a.cpp" 12 "100%% of %s is %d" [AText "it"; AInt (-5)] = Done (Result ("assertion failed: 100% of it is -5 at a.cpp:12: " ++ line_end) Aborts).
Proof. split; reflexivity. Qed.
Example C109_percent : AssertFailureWithSource false false "a.cpp" 12 "x %" [AInt 1] = Fault FUB /\ AssertFailureWithSource false false "a.cpp" 12 "x %" [] = Done (Result ("assertion failed: x % at a.cpp:12" ++ line_end) Aborts).
Proof. split; reflexivity. Qed.

Print Assumptions C109_message.
Print Assumptions C109_condition.
Print Assumptions C109_arguments.
Print Assumptions C109_without_source.
Print Assumptions C109_stops.
Print Assumptions C109_silent.
Print Assumptions C109_percent_refuted.
Print Assumptions C109_line_refuted.
