(** Raw storage holding C++ objects, with their lifetimes.
    A cell is either raw memory or a live object; the value of a live object is [Some a], or [None] once it has been moved from
    (valid but unspecified). Constructing over a live object, destroying or touching raw memory, and leaving the storage are undefined. *)
From Verif Require Export Base.

Inductive cell (A : Type) := Raw | Obj (o : option A).
Arguments Raw {A}.
Arguments Obj {A} o.

Section Cells.
Context {A : Type}.

(** PlacementNew, MemoryHelper.inl 25-28 *)
Definition construct (m : list (cell A)) (i : nat) (o : option A) : outcome (list (cell A)) :=
  match nth_error m i with Some Raw => Done (upd m i (Obj o)) | _ => Fault FUB end.

(** PlacementDestroy on a non-null pointer, MemoryHelper.inl 38-42 *)
Definition destroy (m : list (cell A)) (i : nat) : outcome (list (cell A)) :=
  match nth_error m i with Some (Obj _) => Done (upd m i Raw) | _ => Fault FUB end.

(** Reading (copying) the object in a cell. *)
Definition read (m : list (cell A)) (i : nat) : outcome (option A) :=
  match nth_error m i with Some (Obj o) => Done o | _ => Fault FUB end.

(** Moving the value out of the object in a cell. *)
Definition take (m : list (cell A)) (i : nat) : outcome (option A * list (cell A)) :=
  match nth_error m i with Some (Obj o) => Done (o, upd m i (Obj None)) | _ => Fault FUB end.

(** Assigning to the object in a cell. *)
Definition assign (m : list (cell A)) (i : nat) (o : option A) : outcome (list (cell A)) :=
  match nth_error m i with Some (Obj _) => Done (upd m i (Obj o)) | _ => Fault FUB end.

(** [*dst = std::move( *src)] *)
Definition move_cell (m : list (cell A)) (src dst : nat) : outcome (list (cell A)) :=
  ' (o, m') <- take m src ;; assign m' dst o.

(** std::move(src, src + n, dst) and std::move_backward(src, src + n, dst + n) of <algorithm> *)
Definition move_forward m (src n dst : nat) := foreach (seq 0 n) (fun m k => move_cell m (src + k) (dst + k)) m.
Definition move_backward m (src n dst : nat) := foreach (rev (seq 0 n)) (fun m k => move_cell m (src + k) (dst + k)) m.

(** for (i = a; i < b; ++i) PlacementDestroy(ptr + i) / PlacementNew(ptr + i, o) *)
Definition destroy_range m (a b : nat) := foreach (range a b) destroy m.
Definition construct_range m (a b : nat) (o : option A) := foreach (range a b) (fun m i => construct m i o) m.
End Cells.
