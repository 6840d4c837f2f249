(** What happens to the slots of signals, and which slots are connected after it. *)
From Verif Require Export Base.
Open Scope nat_scope.

(** Slots are numbered in the order of their connection. *)
Inductive event :=
| ECall (id : nat)               (* a slot is called *)
| EConnect (s id : nat)          (* a slot is connected to signal s *)
| EDisconnect (id : nat)         (* a slot is disconnected through a connection *)
| EClear (s : nat)               (* signal s drops all its slots *)
| EMove (d s : nat).             (* signal d drops its slots and takes those of signal s *)

Definition without (id : nat) (l : list nat) : list nat := filter (fun x => negb (x =? id)) l.

(** The slots connected to each signal, oldest first. *)
Definition step_connected (f : nat -> list nat) (e : event) (s : nat) : list nat :=
  match e with
  | ECall _ => f s
  | EConnect s' id => if s' =? s then f s ++ [id] else f s
  | EDisconnect id => without id (f s)
  | EClear s' => if s' =? s then [] else f s
  | EMove d s' => if d =? s then f s' else if s' =? s then [] else f s
  end.
Definition connected (t : list event) : nat -> list nat := fold_left step_connected t (fun _ => []).

(** The calls, in order. *)
Definition calls (t : list event) : list nat := concat (map (fun e => match e with ECall id => [id] | _ => [] end) t).
(** The slot is removed at some point of [t]. *)
Definition removed (s : nat) (t : list event) (id : nat) : Prop := In (EDisconnect id) t \/ In (EClear s) t \/ exists s', In (EMove s s') t \/ In (EMove s' s) t.
