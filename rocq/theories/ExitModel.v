(** Model of include/NazaraUtils/CallOnExit.hpp and CallOnExit.inl.
    An object is its m_functor (std::optional<F>); the world is the log of the functor runs. A functor may call back into the object that
    holds it ([beh]) and may throw ([throws], told the runs so far, the current one included). *)
From Verif Require Import Base.

Inductive self_action := SReset | SCallAndReset.
Section Exit.
  Context {F : Type} (beh : F -> list self_action) (throws : F -> list F -> bool).
  Record state := mkState { functor : option F; runs : list F }.
  Inductive ending := Normal | Thrown.

  (** CallOnExit.inl 54-57 *)
  Definition Reset (s : state) : state := mkState None (runs s).
  (** [( *m_functor)()]: the run is logged, then the functor acts on the object, then it may throw. 40-46 is [CallAndReset]. *)
  Fixpoint CallAndReset (fuel : nat) (s : state) : outcome (state * ending) :=
    match functor s with
    | None => Done (Reset s, Normal)
    | Some f =>
      match fuel with
      | O => Fault FDiverge
      | S fuel' =>
        let fix acts (l : list self_action) (s : state) : outcome (state * ending) :=
          match l with
          | [] => Done (s, Normal)
          | SReset :: r => acts r (Reset s)
          | SCallAndReset :: r => ' (s', e) <- CallAndReset fuel' s ;; match e with Normal => acts r s' | Thrown => Done (s', Thrown) end
          end in
        let s1 := mkState (functor s) (runs s ++ [f]) in
        ' (s2, e) <- acts (beh f) s1 ;;
        match e with
        | Thrown => Done (s2, Thrown)
        | Normal => if throws f (runs s1) then Done (s2, Thrown) else Done (Reset s2, Normal)
        end
      end
    end.
  (** The destructor, 28-32, is noexcept: the call is the one of CallAndReset, the object ends anyway. *)
  Definition destroy (fuel : nat) (s : state) : outcome (list F) :=
    ' (s', e) <- CallAndReset fuel s ;; match e with Normal => Done (runs s') | Thrown => Fault FTerminate end.
  (** 19-23 and the default constructor *)
  Definition construct (f : F) : option F := Some f.
  Definition construct_empty : option F := None.
  (** CallOnExit.hpp 31: the defaulted move assignment is std::optional's; the source stays engaged. The target and the source. *)
  Definition move_assign (moved : F -> F) (a b : option F) : option F * option F :=
    match b with Some f => (Some f, Some (moved f)) | None => (None, None) end.
End Exit.
Arguments state F : clear implicits.
