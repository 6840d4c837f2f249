(** Model of programs with several MemoryPool variables: construction, the members of PoolModel.v, move construction and assignment (MemoryPool.hpp 40 and 78,
    both defaulted), std::swap, and the end of a variable.
    Objects still in the memory of blocks when it is released are never destroyed; they are collected in [lost].
    Move assignment of std::vector releases the elements of the target; onto itself it leaves the vector empty (libstdc++; the standard says valid but unspecified). *)
From Verif Require Export PoolModel.
Open Scope nat_scope.

Section Pools.
Context {A : Type}.
Variable stride : N.

Record pstate := PS { vars : nat -> option (@pool A); lost : list (option A) }.
Definition put {X} (f : nat -> X) (d : nat) (x : X) : nat -> X := fun k => if k =? d then x else f k.
Definition objects (l : list pblock) : list (option A) := flat_map (fun b => flat_map (fun c => match c with Obj o => [o] | Raw => [] end) (memory b)) l.

Inductive qop := QNew (d bs : nat) (at_ : N) | QOp (d : nat) (o : pop A) | QMove (d s : nat) | QAssign (d s : nat) | QSwap (a b : nat) | QEnd (d : nat).

(** operator=(MemoryPool&&): m_blockSize is copied, m_blocks is move-assigned. *)
Definition q_assign (st : pstate) (d s : nat) : outcome pstate :=
  match vars st d, vars st s with
  | Some p, Some q =>
    if d =? s then Done (PS (put (vars st) d (Some (MP (m_blockSize p) []))) (lost st ++ objects (m_blocks p)))
    else let '(p', q', dropped) := pool_move_assign p q in Done (PS (put (put (vars st) s (Some q')) d (Some p')) (lost st ++ objects dropped))
  | _, _ => Fault FUB
  end.

Definition qstep (st : pstate) (o : qop) : outcome (pstate * option (nat * N)) :=
  match o with
  | QNew d bs at_ =>
    match vars st d with
    | None => p <- pool_new bs at_ ;; Done (PS (put (vars st) d (Some p)) (lost st), None)
    | Some _ => Fault FUB
    end
  | QOp d o =>
    match vars st d with
    | Some p =>
      match o with
      | PClear => ' (p, dropped) <- Clear p ;; Done (PS (put (vars st) d (Some p)) (lost st ++ objects dropped), None)
      | _ => ' (p, r) <- pool_apply stride p o ;; Done (PS (put (vars st) d (Some p)) (lost st), r)
      end
    | None => Fault FUB
    end
  | QMove d s =>
    match vars st d, vars st s with
    | None, Some q => let '(p', q') := pool_move q in Done (PS (put (put (vars st) s (Some q')) d (Some p')) (lost st), None)
    | _, _ => Fault FUB
    end
  | QAssign d s => st <- q_assign st d s ;; Done (st, None)
  | QSwap a b =>
    (* T tmp = std::move(a); a = std::move(b); b = std::move(tmp); and the end of tmp *)
    match vars st a, vars st b with
    | Some p, Some _ =>
      let '(t, p') := pool_move p in
      st <- q_assign (PS (put (vars st) a (Some p')) (lost st)) a b ;;
      match vars st b with
      | Some q =>
        let '(q', t', dropped) := pool_move_assign q t in
        released <- pool_destroy t' ;;
        Done (PS (put (vars st) b (Some q')) (lost st ++ objects dropped ++ objects released), None)
      | None => Fault FUB
      end
    | _, _ => Fault FUB
    end
  | QEnd d =>
    match vars st d with
    | Some p => dropped <- pool_destroy p ;; Done (PS (put (vars st) d None) (lost st ++ objects dropped), None)
    | None => Fault FUB
    end
  end.
Fixpoint qrun (st : pstate) (ops : list qop) : outcome (pstate * list (option (nat * N))) :=
  match ops with
  | [] => Done (st, [])
  | o :: ops => ' (st, r) <- qstep st o ;; ' (st, rs) <- qrun st ops ;; Done (st, r :: rs)
  end.
Definition pools_start : pstate := PS (fun _ => None) [].
End Pools.
