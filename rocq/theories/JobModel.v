(** Model of the job queue.

    Source: /repo/src/lib/rjs_job.c lines 28-94, list macros of
    /repo/include/ratjs/rjs_list.h lines 82-119 and 173-178, and the script
    function [solveJobs] of /repo/src/lib/rjs_extension_opt.c lines 391-397.

    The doubly linked list is the list of its nodes in order.  A node that was
    unlinked is freed at once by the code, so touching a node (reading its
    [next], unlinking it) that is not in the list is the outcome [JCrash]. *)
From Coq Require Import List Arith Bool.
Import ListNotations.

Section Job.
  (** [C]: job function together with its data; [W]: everything the job bodies
      can read and write; [R]: realms. *)
  Variables C W R : Type.

  (** What a job body does, seen from the queue: compute on the shared state,
      enqueue a job in some realm, or call rjs_solve_jobs from script. *)
  Inductive prog :=
  | PDone
  | PStep (f : W -> W * prog)
  | PEnq (c : C) (r : R) (k : prog)
  | PSolve (k : prog).

  (** [j->func] *)
  Variable body : C -> prog.

  (** RJS_Job: identity, function, realm. *)
  Record job := mkJob { jid : nat; jcode : C; jrealm : R }.

  (** The part of RJS_Runtime involved, plus ghost history: [enqd] every job
      ever enqueued in order, [ran] each start of a job with the realm current
      at that moment. *)
  Record st := mkSt {
    queue : list job;
    world : W;
    bot_realm : R;
    nextid : nat;
    enqd : list job;
    ran : list (nat * R)
  }.

  Inductive outcome :=
  | JDone (s : st)
  | JFuel (s : st)       (* still running *)
  | JCrash (s : st).     (* use of a freed node *)

  (** rjs_job.c:49-68 — rjs_job_enqueue (append at the tail) *)
  Definition rjs_job_enqueue (c : C) (r : R) (s : st) : st :=
    let j := mkJob (nextid s) c r in
    mkSt (queue s ++ [j]) (world s) (bot_realm s) (S (nextid s)) (enqd s ++ [j]) (ran s).

  (** Node following node [i] in the list: [None] if [i] is not linked (freed),
      [Some None] if the next node is the list head. *)
  Fixpoint next_of (q : list job) (i : nat) : option (option nat) :=
    match q with
    | [] => None
    | j :: t =>
      if jid j =? i then Some (match t with [] => None | j' :: _ => Some (jid j') end)
      else next_of t i
    end.

  (** The job stored in a linked node. *)
  Definition node (q : list job) (i : nat) : option job :=
    find (fun j => jid j =? i) q.

  (** rjs_list.h:113-119 — rjs_list_remove then job_free; [None] if the node
      had been freed already. *)
  Definition remove_node (s : st) (i : nat) : option st :=
    match node (queue s) i with
    | None => None
    | Some _ => Some (mkSt (filter (fun j => negb (jid j =? i)) (queue s))
                           (world s) (bot_realm s) (nextid s) (enqd s) (ran s))
    end.

  Definition set_world (s : st) (w : W) : st :=
    mkSt (queue s) w (bot_realm s) (nextid s) (enqd s) (ran s).
  Definition set_realm (s : st) (r : R) : st :=
    mkSt (queue s) (world s) r (nextid s) (enqd s) (ran s).
  Definition log_run (s : st) (i : nat) (r : R) : st :=
    mkSt (queue s) (world s) (bot_realm s) (nextid s) (enqd s) (ran s ++ [(i, r)]).

  (** Run a body; [solve] is what a nested rjs_solve_jobs does. *)
  Fixpoint exec (solve : st -> outcome) (p : prog) (s : st) : outcome :=
    match p with
    | PDone => JDone s
    | PStep f => let '(w, k) := f (world s) in exec solve k (set_world s w)
    | PEnq c r k => exec solve k (rjs_job_enqueue c r s)
    | PSolve k =>
      match solve s with
      | JDone s' => exec solve k s'
      | o => o
      end
    end.

  (** rjs_job.c:80-91 — the two nested loops.  The cursor is [None] at the list
      head (where the inner loop ends and the outer condition is tested) and
      [Some i] at a node.  [old] is the saved realm, line 78, restored at
      line 93. *)
  Fixpoint solve_loop (fuel : nat) (old : R) (cur : option nat) (s : st) : outcome :=
    match fuel with
    | O => JFuel s
    | S f =>
      match cur with
      | None =>
        match queue s with
        | [] => JDone (set_realm s old)
        | j :: _ => solve_loop f old (Some (jid j)) s
        end
      | Some i =>
        match node (queue s) i, next_of (queue s) i with
        | Some j, Some nj =>
          let s1 := set_realm s (jrealm j) in
          match exec (fun s' => solve_loop f (bot_realm s') None s') (body (jcode j))
                     (log_run s1 i (bot_realm s1)) with
          | JDone s2 =>
            match remove_node s2 i with
            | Some s3 => solve_loop f old nj s3
            | None => JCrash s2
            end
          | o => o
          end
        | _, _ => JCrash s
        end
      end
    end.

  (** rjs_job.c:74-94 — rjs_solve_jobs *)
  Definition rjs_solve_jobs (fuel : nat) (s : st) : outcome :=
    solve_loop fuel (bot_realm s) None s.

  (** A runtime whose queue was filled by [init] (top-level script). *)
  Definition start (w : W) (r0 : R) (init : list (C * R)) : st :=
    fold_left (fun s cr => rjs_job_enqueue (fst cr) (snd cr) s) init
              (mkSt [] w r0 0 [] []).
End Job.
