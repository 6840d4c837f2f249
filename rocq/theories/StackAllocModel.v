(** Model of the macros NazaraStackArray, NazaraStackArrayNoInit (StackArray.hpp 12-18), NazaraStackVector (StackVector.hpp 13-17) and
    NAZARA_ALLOCA (MemoryHelper.hpp 12-32).
    The argument of the macro is an expression, pasted as text several times; here a function of the state of the program that gives the value
    converted to std::size_t and the new state.  Evaluation order of the two constructor arguments is a parameter.
    The stack grows downwards and alloca gives addresses that are multiples of 16 (gcc and clang on x86-64 and arm64, MSVC on x64).
    Simplification: sizeof(T) is constant and the product is computed in std::size_t (64 bits); the branch without alloca is not modelled
    (StackArray.hpp 16-17 name Nz::OperatorNew, which is declared nowhere). *)
From Verif Require Export Base CInt StackModel.
Open Scope Z_scope.

Section Alloca.
Context {S : Type}.

Definition size_expr := S -> Z * S.

(** [(size) * sizeof(T)] *)
Definition bytes_expr (e : size_expr) (sz : Z) : size_expr := fun s => let (v, s) := e s in (v * sz mod 2 ^ 64, s).

Inductive platform := Windows | Posix.

(** NAZARA_ALLOCA: the argument of _alloca (line 17), that of alloca (line 29) *)
Definition alloca_bytes (pl : platform) (e : size_expr) : size_expr := fun s =>
  match pl with
  | Windows => e s
  | Posix => let (c, s) := e s in if c >? 0 then e s else (1, s)
  end.

(** alloca: the new stack pointer is the address; running below the end of the stack is undefined. *)
Definition alloca (bottom sp n : Z) : outcome Z :=
  let p := (sp - n) / 16 * 16 in
  if p <? bottom then Fault FUB else Done p.

(** What the constructor receives: the address, the bytes reserved there and the size. *)
Record stack_memory := Memory { address : Z; reserved : Z; elements : Z }.

(** StackArray.hpp 13-14, StackVector.hpp 14 *)
Definition stack_macro (pl : platform) (size_first : bool) (e : size_expr) (sz bottom sp : Z) (s : S) : outcome (stack_memory * S) :=
  if size_first then
    let (n, s) := e s in
    let (b, s) := alloca_bytes pl (bytes_expr e sz) s in
    p <- alloca bottom sp b ;; Done (Memory p b n, s)
  else
    let (b, s) := alloca_bytes pl (bytes_expr e sz) s in
    p <- alloca bottom sp b ;;
    let (n, s) := e s in
    Done (Memory p b n, s).

(** Several of them in one function; each lowers the stack pointer. *)
Fixpoint stack_macros (pl : platform) (l : list (bool * size_expr * Z)) (bottom sp : Z) (s : S) : outcome (list stack_memory * S) :=
  match l with
  | [] => Done ([], s)
  | (o, e, sz) :: l =>
    ' (m, s) <- stack_macro pl o e sz bottom sp s ;;
    ' (ms, s) <- stack_macros pl l bottom (address m) s ;; Done (m :: ms, s)
  end.
End Alloca.
Arguments size_expr : clear implicits.

(** The whole elements that fit in the memory, as a block for [sa_new] and [sv_new] of StackModel. *)
Definition block {A} (sz : Z) (m : stack_memory) : list (cell A) := repeat Raw (Z.to_nat (reserved m / sz)).
