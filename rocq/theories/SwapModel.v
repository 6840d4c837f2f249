(** std::swap(a, b), the general one of <utility>, applied to classes of the library that declare no swap of their own:
      T tmp = std::move(a); a = std::move(b); b = std::move(tmp);     // and tmp ends
    a and b are different objects, but for the last part. The classes are those of MovableModel.v, ResultModel.v, StackModel.v, VectorModel.v and SignalModel.v. *)
From Verif Require Import Base VectorModel StackModel.
From Verif Require MovableModel ResultModel SignalModel.

(** From the move construction (new object, source) and the move assignment (target, source): a, b and tmp before it ends. *)
Definition std_swap {T : Type} (construct : T -> T * T) (assign : T -> T -> T * T) (a b : T) : T * T * T :=
  let (tmp, a) := construct a in
  let (a, b) := assign a b in
  let (b, tmp) := assign b tmp in
  (a, b, tmp).

Definition lit_swap {T : Type} (DefaultValue : T) := std_swap (MovableModel.lit_move_construct DefaultValue) MovableModel.lit_move_assign.
Definition ptr_swap {A : Type} := std_swap (@MovableModel.ptr_move_construct A) MovableModel.ptr_move_assign.
Definition val_swap {T : Type} (moved : T -> T) := std_swap (MovableModel.val_move_construct moved) (MovableModel.val_assign moved MovableModel.Rvalue).

(** Result: [t1], [t2] tell whether the moves of the two assignments throw. The two objects and whether an exception left. *)
Definition res_swap {V E : Type} (movedV : V -> V) (movedE : E -> E) (t1 t2 : bool) (a b : ResultModel.result V E) : ResultModel.result V E * ResultModel.result V E * bool :=
  let (tmp, a) := ResultModel.move_construct movedV movedE a in
  let '((a, thrown), b) := ResultModel.assign_move movedV movedE a b t1 in
  if thrown then (a, b, true)
  else let '((b, thrown), tmp) := ResultModel.assign_move movedV movedE b tmp t2 in (a, b, thrown).
(** Result<void, E> is a std::optional<E>, whose moves leave the source engaged. *)
Definition void_swap {E : Type} (movedE : E -> E) := std_swap (fun r : option E => (r, ResultModel.void_moved_error movedE r)) (fun _ r => (r, ResultModel.void_moved_error movedE r)).

(** StackVector and StackArray: the end of tmp works on the heap. *)
Definition sv_swap {A : Type} (dflt : A) (h : list (list (cell A))) (a b : svec) : outcome (list (list (cell A)) * svec * svec) :=
  let '(a, b, tmp) := std_swap sv_move sv_move_assign a b in
  h <- sv_destroy dflt h tmp ;; Done (h, a, b).
Definition sa_swap {A : Type} (h : list (list (cell A))) (a b : sarr) : outcome (list (list (cell A)) * sarr * sarr) :=
  let '(a, b, tmp) := std_swap sa_move sa_move_assign a b in
  h <- sa_destroy h tmp ;; Done (h, a, b).

(** FixedVector ([has] = false) and HybridVector: also the memory of tmp after its end. *)
Definition vec_swap {A : Type} (has : bool) (cap : nat) (a b : fvec A) : outcome (fvec A * fvec A * list (cell A)) :=
  ' (tmp, a) <- fv_move has cap a ;;
  st <- fv_move_assign has cap [a; b; tmp] 0 1 ;;
  st <- fv_move_assign has cap st 1 2 ;;
  a <- vget st 0 ;; b <- vget st 1 ;; tmp <- vget st 2 ;;
  m <- fv_destroy has tmp ;; Done (a, b, m).

(** Signals by their number: tmp is a new signal. ConnectionGuard: its move construction is the one of Connection (defaulted, Signal.hpp 117). *)
Definition sig_swap (w : SignalModel.world) (a b : nat) : outcome SignalModel.world :=
  let tmp := length (SignalModel.sigs w) in
  w <- SignalModel.sig_move w a ;;
  w <- SignalModel.sig_move_assign w a b ;;
  w <- SignalModel.sig_move_assign w b tmp ;;
  SignalModel.sig_destroy w tmp.
Definition guard_swap (w : SignalModel.world) (a b : option nat) : outcome (SignalModel.world * option nat * option nat) :=
  let (tmp, a) := SignalModel.conn_move a in
  ' (w, a, b) <- SignalModel.guard_move_assign w a b ;;
  ' (w, b, tmp) <- SignalModel.guard_move_assign w b tmp ;;
  w <- SignalModel.guard_destroy w tmp ;; Done (w, a, b).

(** std::swap(a, a): the first assignment is from the object to itself. [self] is what such an assignment leaves in it: std::swap of a member with
    itself for MovableLiteral and MovablePtr, and so for the pointers of StackVector and StackArray. *)
Definition std_swap_self {T : Type} (construct : T -> T * T) (assign : T -> T -> T * T) (self : T -> T) (a : T) : T * T :=
  let (tmp, a) := construct a in
  let a := self a in
  assign a tmp.
Definition lit_swap_self {T : Type} (DefaultValue : T) := std_swap_self (MovableModel.lit_move_construct DefaultValue) MovableModel.lit_move_assign (fun x => x).
Definition ptr_swap_self {A : Type} := std_swap_self (@MovableModel.ptr_move_construct A) MovableModel.ptr_move_assign (fun x => x).
Definition sv_swap_self {A : Type} (dflt : A) (h : list (list (cell A))) (a : svec) : outcome (list (list (cell A)) * svec) :=
  let (a, tmp) := std_swap_self sv_move sv_move_assign (fun x => x) a in
  h <- sv_destroy dflt h tmp ;; Done (h, a).
Definition sa_swap_self {A : Type} (h : list (list (cell A))) (a : sarr) : outcome (list (list (cell A)) * sarr) :=
  let (a, tmp) := std_swap_self sa_move sa_move_assign (fun x => x) a in
  h <- sa_destroy h tmp ;; Done (h, a).
Definition vec_swap_self {A : Type} (has : bool) (cap : nat) (a : fvec A) : outcome (fvec A * list (cell A)) :=
  ' (tmp, a) <- fv_move has cap a ;;
  st <- fv_move_assign has cap [a; tmp] 0 0 ;;
  st <- fv_move_assign has cap st 0 1 ;;
  a <- vget st 0 ;; tmp <- vget st 1 ;;
  m <- fv_destroy has tmp ;; Done (a, m).
