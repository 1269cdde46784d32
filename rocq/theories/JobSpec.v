(** Specification vocabulary for job queues: a plain FIFO machine that pops the
    first job before running it, and the class of job bodies that never drain
    the queue themselves. *)
From Coq Require Import List Arith.
Import ListNotations.
From Verif Require Import JobModel.

Section Spec.
  Variables C W R : Type.
  Variable body : C -> prog C W R.

  (** The body never calls rjs_solve_jobs, whatever the shared state is. *)
  Inductive nosolve : prog C W R -> Prop :=
  | ns_done : nosolve (PDone C W R)
  | ns_step f : (forall w, nosolve (snd (f w))) -> nosolve (PStep C W R f)
  | ns_enq c r k : nosolve k -> nosolve (PEnq C W R c r k).

  (** Effects of one body: final shared state and the jobs it enqueues. *)
  Fixpoint effects (p : prog C W R) (w : W) : W * list (C * R) :=
    match p with
    | PDone _ _ _ => (w, [])
    | PStep _ _ _ f => let '(w', k) := f w in effects k w'
    | PEnq _ _ _ c r k => let '(w', l) := effects k w in (w', (c, r) :: l)
    | PSolve _ _ _ k => effects k w
    end.

  (** FIFO: run the first pending job in its realm, then go on with the rest
      followed by what it enqueued.  The result is the sequence of jobs run
      and the final shared state, or [None] if [n] runs are not enough. *)
  Fixpoint fifo (n : nat) (w : W) (pending : list (C * R)) : option (list (C * R) * W) :=
    match pending with
    | [] => Some ([], w)
    | cr :: rest =>
      match n with
      | O => None
      | S n' =>
        let '(w', new) := effects (body (fst cr)) w in
        match fifo n' w' (rest ++ new) with
        | Some (l, w'') => Some (cr :: l, w'')
        | None => None
        end
      end
    end.
End Spec.
