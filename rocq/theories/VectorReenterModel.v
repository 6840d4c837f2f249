(** FixedVector (inline storage) and StackVector whose elements use the vector themselves: constructors and destructors that call emplace_back, pop_back, operator[],
    clear and resize of the vector that holds them. FixedVector.inl 283-299 (clear), 239-242 (destructor), emplace_back, pop_back, resize(count, value), operator[];
    StackVector.inl 35-42, 77-80, 143-147, 244-248, 271-288, 321-325: the same code.
    [ctor a], [dtor a]: the calls the constructor and the destructor of the element [a] make. A cell holds no object before the constructor returns and after the destructor
    is called ([basic.life]). Using or destroying an element that is not alive is undefined, and so is (taken strictly) constructing one where another is in use.
    Simplified: reading is all that is done with an element; [depth] bounds how deep the calls nest. *)
From Verif Require Export Base.
Open Scope nat_scope.

(** No object, an object under construction or destruction, an object. *)
Inductive cell A := Raw | Busy | Live (a : A).
Arguments Raw {A}. Arguments Busy {A}. Arguments Live {A}.
Record vs A := VS { cells : list (cell A); m_size : nat }.
Arguments VS {A}. Arguments cells {A}. Arguments m_size {A}.
Inductive vcall A := VPush (a : A) | VPop | VRead (i : nat) | VClear | VResize (count : nat) (a : A).
Arguments VPush {A}. Arguments VPop {A}. Arguments VRead {A}. Arguments VClear {A}. Arguments VResize {A}.

Section Reenter.
Context {A : Type}.
Variables (ctor dtor : A -> list (vcall A)).

Section Calls.
  Variable rec : list (vcall A) -> vs A -> outcome (vs A).
  (** PlacementNew(data(i), a) *)
  Definition construct_at (i : nat) (a : A) (s : vs A) : outcome (vs A) :=
    c <- vget (cells s) i ;;
    match c with
    | Raw => s <- rec (ctor a) (VS (upd (cells s) i Busy) (m_size s)) ;; Done (VS (upd (cells s) i (Live a)) (m_size s))
    | _ => Fault FUB
    end.
  (** PlacementDestroy(data(i)) *)
  Definition destroy_at (i : nat) (s : vs A) : outcome (vs A) :=
    c <- vget (cells s) i ;;
    match c with
    | Live a => s <- rec (dtor a) (VS (upd (cells s) i Busy) (m_size s)) ;; Done (VS (upd (cells s) i Raw) (m_size s))
    | _ => Fault FUB
    end.
  (** for (i = from; i < m_size; ++i) PlacementDestroy(data(i)) *)
  Fixpoint destroy_from (fuel i : nat) (s : vs A) : outcome (vs A) :=
    if i <? m_size s then match fuel with O => Fault FDiverge | S fuel => s <- destroy_at i s ;; destroy_from fuel (i + 1) s end else Done s.
  (** for (i = m_size; i < count; ++i) PlacementNew(data(i), value) *)
  Fixpoint construct_from (n i : nat) (a : A) (s : vs A) : outcome (vs A) :=
    match n with O => Done s | S n => s <- construct_at i a s ;; construct_from n (i + 1) a s end.
  Definition vexec_one (c : vcall A) (s : vs A) : outcome (vs A) :=
    let capacity := length (cells s) in
    match c with
    | VPush a => assert (m_size s <? capacity) ;;; construct_at (m_size s) a (VS (cells s) (m_size s + 1))
    | VPop => assert (negb (m_size s =? 0)) ;;; destroy_at (m_size s - 1) (VS (cells s) (m_size s - 1))
    | VRead i => assert (i <? m_size s) ;;; c <- vget (cells s) i ;; match c with Live _ => Done s | _ => Fault FUB end
    | VClear => s <- destroy_from capacity 0 s ;; Done (VS (cells s) 0)
    | VResize count a =>
      assert (count <=? capacity) ;;;
      if m_size s <? count then s <- construct_from (count - m_size s) (m_size s) a s ;; Done (VS (cells s) count)
      else if count <? m_size s then s <- destroy_from capacity count s ;; Done (VS (cells s) count)
      else Done s
    end.
  Fixpoint vexec_all (cs : list (vcall A)) (s : vs A) : outcome (vs A) := match cs with [] => Done s | c :: cs => s <- vexec_one c s ;; vexec_all cs s end.
End Calls.
Fixpoint vexec (depth : nat) (cs : list (vcall A)) (s : vs A) : outcome (vs A) :=
  match depth with O => Fault FDiverge | S depth => vexec_all (vexec depth) cs s end.
End Reenter.
