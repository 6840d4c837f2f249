(** The order in which the slots of a signal are called, when nothing happens during emissions. *)
From Verif Require Export SignalSpec.
Open Scope nat_scope.

(** A slot that leaves is replaced by the last one. *)
Definition fill (id : nat) (l : list nat) : list nat :=
  if existsb (Nat.eqb id) l then removelast (map (fun x => if x =? id then last l 0 else x) l) else l.
Definition step_queue (f : nat -> list nat) (e : event) (s : nat) : list nat :=
  match e with
  | ECall _ => f s
  | EConnect s' id => if s' =? s then f s ++ [id] else f s
  | EDisconnect id => fill id (f s)
  | EClear s' => if s' =? s then [] else f s
  | EMove d s' => if d =? s then f s' else if s' =? s then [] else f s
  end.
Definition queue (t : list event) : nat -> list nat := fold_left step_queue t (fun _ => []).

(** The slot is the last one or the one before it. *)
Definition near_end (id : nat) (l : list nat) : Prop := exists A, l = A ++ [id] \/ exists z, l = A ++ [id; z].
(** Every slot that is disconnected was, among the slots of its signal that are still connected, one of the two connected last. *)
Definition tidy (t : list event) : Prop := forall t1 id t2 s, t = t1 ++ EDisconnect id :: t2 -> In id (connected t1 s) -> near_end id (connected t1 s).
