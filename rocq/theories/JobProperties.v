(** Property theorems for the job queue (C17). *)
From Coq Require Import List Arith Bool Lia.
Import ListNotations.
From Verif Require Import JobModel JobSpec JobProofs.

(** C17 (jobs that do not drain the queue themselves): whatever the jobs
    compute and enqueue, draining never touches freed memory; at every moment
    the jobs started so far are exactly the first jobs ever enqueued, each once,
    in order and each in its own realm; when draining returns every job ever
    enqueued has run, the queue is empty, the realm is restored, and the
    effects are those of the plain FIFO machine. *)
Theorem C17_jobs_fifo_exactly_once :
  forall (C W R : Type) (body : C -> prog C W R),
    (forall c, nosolve C W R (body c)) ->
    forall w r0 init fuel,
    match rjs_solve_jobs C W R body fuel (start C W R w r0 init) with
    | JCrash _ _ _ _ => False
    | JFuel _ _ _ s' => exists k, all_ran C W R s' k
    | JDone _ _ _ s' =>
      queue C W R s' = [] /\ bot_realm C W R s' = r0 /\
      all_ran C W R s' (length (enqd C W R s')) /\
      exists n, fifo C W R body n w init = Some (map (cr C R) (enqd C W R s'), world C W R s')
    end.
Proof. exact jobs_fifo. Qed.
Print Assumptions C17_jobs_fifo_exactly_once.

(** C17: draining does return whenever the FIFO machine runs out of jobs. *)
Theorem C17_jobs_drain_terminates :
  forall (C W R : Type) (body : C -> prog C W R),
    (forall c, nosolve C W R (body c)) ->
    forall w r0 init n l wf,
    fifo C W R body n w init = Some (l, wf) ->
    exists fuel s', rjs_solve_jobs C W R body fuel (start C W R w r0 init) = JDone C W R s' /\
      world C W R s' = wf /\ map (cr C R) (enqd C W R s') = l.
Proof. exact jobs_complete. Qed.
Print Assumptions C17_jobs_drain_terminates.

(** Non-vacuity: job n enqueues n-1 twice; three levels of jobs are run in
    order. *)
Definition demo_body (n : nat) : prog nat nat unit :=
  match n with
  | O => PStep _ _ _ (fun w => (S w, PDone _ _ _))
  | S m => PEnq _ _ _ m tt (PStep _ _ _ (fun w => (S w, PEnq _ _ _ m tt (PDone _ _ _))))
  end.
Example C17_demo_nosolve : forall n, nosolve nat nat unit (demo_body n).
Proof. intros [|n]; repeat constructor. Qed.
Example C17_demo_run :
  match rjs_solve_jobs nat nat unit demo_body 30 (start nat nat unit 0 tt [(2, tt); (0, tt)]) with
  | JDone _ _ _ s => (map fst (ran _ _ _ s), world _ _ _ s)
  | _ => ([], 0)
  end = ([0; 1; 2; 3; 4; 5; 6; 7], 8).
Proof. vm_compute. reflexivity. Qed.
Example C17_demo_fifo :
  fifo nat nat unit demo_body 10 0 [(2, tt); (0, tt)]
  = Some ([(2,tt); (0,tt); (1,tt); (1,tt); (0,tt); (0,tt); (0,tt); (0,tt)], 8).
Proof. vm_compute. reflexivity. Qed.

(** C17 is violated when a job calls the script function [solveJobs()]: the
    running job is still in the queue, so it is started a second time, and the
    outer loop then unlinks and frees the already freed node. *)
Definition reentrant_body (_ : unit) : prog unit nat unit :=
  PStep _ _ _ (fun w => match w with
                        | O => (1, PSolve _ _ _ (PDone _ _ _))
                        | S _ => (w, PDone _ _ _)
                        end).
Theorem C17_reentrant_drain_refuted :
  exists (C W R : Type) (body : C -> prog C W R) w r0 init fuel s i r r',
    rjs_solve_jobs C W R body fuel (start C W R w r0 init) = JCrash C W R s /\
    ran C W R s = [(i, r); (i, r')].
Proof.
  exists unit, nat, unit, reentrant_body, 0, tt, [(tt, tt)], 10.
  eexists. exists 0, tt, tt. vm_compute. split; reflexivity.
Qed.
Print Assumptions C17_reentrant_drain_refuted.
