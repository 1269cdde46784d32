(** Properties C18 and C19: promises settle once; reactions run once, later, in order. *)
From Coq Require Import List ZArith Bool Arith Lia.
Import ListNotations.
From Verif Require Import PromiseModel PromiseSpec PromiseProofs.

(** A script: promise 0 with pair 0 and two reactions; it is resolved with a
    thenable that calls both its functions; its own pair is called again. *)
Definition script : list action :=
  [ANew; AThenNew 0 (VFun 1) VUndef; AThenNew 0 VUndef (VFun 2);
   AResolve 0 (VObj 7); AReject 0 (VPrim 1); AResolve 0 (VPrim 2);
   AGet 0 (GValue (VFun 3)); AReturn 0 (RThrow (VPrim 9));
   AJob; AReject 3 (VPrim 5); AResolve 3 (VPrim 6); AReturn 0 (RThrow (VPrim 8));
   AThenNew 0 VUndef (VFun 4); AJob; AJob; AReturn 0 (RNormal (VPrim 11));
   AJob; AReturn 0 (RThrow (VPrim 12))].

Definition after (l : list action) : state :=
  match run init l with Ok s => s | _ => init end.

(** ** C18 *)

(** No assertion of fulfill_promise or reject_promise ever fails. *)
Theorem C18_no_assertion_fails : forall l, run init l <> AssertFail.
Proof. exact run_no_assert. Qed.

(** A promise is settled at most once, and its state and result are those of
    that settlement. *)
Theorem C18_settled_at_most_once : forall l s p, run init l = Ok s ->
  settlements p (trace s) = match outcome s p with Some o => [o] | None => [] end.
Proof. exact settled_once. Qed.

Theorem C18_settled_stays : forall l m s s' p o, run init l = Ok s -> run s m = Ok s' ->
  outcome s p = Some o -> outcome s' p = Some o.
Proof. exact settled_stays. Qed.

(** Once one function of a pair was called, calls of either change nothing. *)
Theorem C18_later_calls_ignored : forall l s s' i a v, run init l = Ok s ->
  called i (trace s) -> a = AResolve i v \/ a = AReject i v -> step s a = Ok s' ->
  same_promises s s'.
Proof. exact called_again. Qed.

(** The first call decides: reject rejects, resolve with a non-object fulfills,
    resolve with the promise itself rejects, resolve with another object asks
    it for "then". *)
Theorem C18_first_call_decides : forall l s i p b a v, run init l = Ok s ->
  nth_error (statuses s) i = Some (p, b) -> ~ called i (trace s) ->
  outcome s p = None /\
  (a = AReject i v -> exists s', step s a = Ok s' /\ outcome s' p = Some (Rejected, v)) /\
  (a = AResolve i v -> is_object v = false ->
     exists s', step s a = Ok s' /\ outcome s' p = Some (Fulfilled, v)) /\
  (a = AResolve i v -> v = VProm p ->
     exists s', step s a = Ok s' /\ outcome s' p = Some (Rejected, VTypeErr)) /\
  (a = AResolve i v -> is_object v = true -> v <> VProm p ->
     exists s', step s a = Ok s' /\ outcome s' p = None /\
       gets s' = gets s ++ [(p, v)] /\ queue s' = queue s).
Proof. exact first_call. Qed.

Theorem C18_then_answer_decides : forall l s k p v, run init l = Ok s ->
  nth_error (gets s) k = Some (p, v) ->
  outcome s p = None /\
  (forall e, exists s', step s (AGet k (GThrow e)) = Ok s' /\
     outcome s' p = Some (Rejected, e)) /\
  (forall h, callable h = false -> exists s', step s (AGet k (GValue h)) = Ok s' /\
     outcome s' p = Some (Fulfilled, v)) /\
  (forall h, callable h = true -> exists s', step s (AGet k (GValue h)) = Ok s' /\
     outcome s' p = None /\ queue s' = queue s ++ [JThen p v h]).
Proof. exact get_answer. Qed.

Example C18_witness :
  run init script = Ok (after script) /\
  outcome (after (firstn 9 script)) 0 = None /\
  outcome (after (firstn 10 script)) 0 = Some (Rejected, VPrim 5) /\
  outcome (after script) 0 = Some (Rejected, VPrim 5) /\
  called 0 (trace (after (firstn 4 script))) /\
  nth_error (statuses (after (firstn 9 script))) 3 = Some (0, false) /\
  nth_error (gets (after (firstn 6 script))) 0 = Some (0, VObj 7) /\
  fulfill_promise (after script) 0 VUndef = AssertFail.
Proof. vm_compute. repeat split; auto 20. Qed.

(** ** C19 *)

(** At every moment the jobs started so far followed by the jobs in the queue
    are exactly the jobs due, in the order in which they became due. *)
Theorem C19_jobs_are_due_jobs : forall l s, run init l = Ok s ->
  started (trace s) ++ queue s = due [] (trace s).
Proof. exact jobs_due. Qed.

(** The reaction jobs of one promise: none while it is pending; afterwards one
    for each registration, in the order of registration. *)
Theorem C19_promise_jobs_in_order : forall l s p, run init l = Ok s ->
  filter (of_prom p) (started (trace s) ++ queue s) =
  match outcome s p with
  | None => []
  | Some (st, v) => map (fun g => due_job p g st v) (regs p (trace s))
  end.
Proof. exact promise_jobs. Qed.

(** Each registration gives exactly one job once its promise is settled. *)
Theorem C19_exactly_once : forall l s n p f r c, run init l = Ok s ->
  In (EReg n p f r c) (trace s) ->
  filter (of_reg n) (started (trace s) ++ queue s) =
  match outcome s p with
  | None => []
  | Some (st, v) => [due_job p (Reg n f r c) st v]
  end.
Proof. exact reg_once. Qed.

(** A job starts only when it is taken from the head of the queue: never inside
    then, resolve, reject or the end of another function. *)
Theorem C19_asynchronous : forall s a s', step s a = Ok s' ->
  started (trace s') = started (trace s) ++
    match a with AJob => match queue s with j :: _ => [j] | [] => [] end | _ => [] end.
Proof. exact start_only_jobs. Qed.

(** The derived promise: one of its capability functions is called at most
    once, and exactly once when everything is done. *)
Theorem C19_capability_at_most_once : forall l s n, run init l = Ok s ->
  length (cap_calls n (trace s)) <= 1.
Proof. exact cap_le1. Qed.

Theorem C19_capability_when_done : forall l s n p f r c o, run init l = Ok s ->
  In (EReg n p f r c) (trace s) -> outcome s p = Some o -> c_promise c <> VUndef ->
  queue s = [] -> frames s = [] -> length (cap_calls n (trace s)) = 1.
Proof. exact cap_done. Qed.

(** With a handler its result goes to resolve and its exception to reject. *)
Theorem C19_handler_result : forall s k r o s', nth_error (frames s) k = Some (FReact r) ->
  c_promise (r_cap r) <> VUndef -> step s (AReturn k o) = Ok s' ->
  cap_calls (r_reg r) (trace s') = cap_calls (r_reg r) (trace s) ++
    [match o with RNormal v => (c_resolve (r_cap r), v) | RThrow e => (c_reject (r_cap r), e) end].
Proof. exact cap_value. Qed.

(** Without a handler the result of the promise is passed on. *)
Theorem C19_no_handler : forall s r a q s', queue s = JReact r a :: q -> r_handler r = VUndef ->
  c_promise (r_cap r) <> VUndef -> step s AJob = Ok s' ->
  cap_calls (r_reg r) (trace s') = cap_calls (r_reg r) (trace s) ++
    [(match r_type r with RFul => c_resolve (r_cap r) | RRej => c_reject (r_cap r) end, a)].
Proof. exact cap_passthrough. Qed.

Theorem C19_handler_called : forall s r a q s', queue s = JReact r a :: q ->
  r_handler r <> VUndef -> step s AJob = Ok s' -> frames s' = frames s ++ [FReact r].
Proof. exact handler_frame. Qed.

(** The three reactions of the script: the first passes the rejection on, the
    other two call their handlers with the reason, one of which throws. *)
Example C19_witness :
  map g_num (regs 0 (trace (after script))) = [0; 1; 2] /\
  filter (of_prom 0) (started (trace (after script))) =
    [JReact (React RRej VUndef (Cap (VProm 1) (VRes 1) (VRej 1)) 0 0) (VPrim 5);
     JReact (React RRej (VFun 2) (Cap (VProm 2) (VRes 2) (VRej 2)) 0 1) (VPrim 5);
     JReact (React RRej (VFun 4) (Cap (VProm 3) (VRes 4) (VRej 4)) 0 2) (VPrim 5)] /\
  queue (after script) = [] /\ frames (after script) = [] /\
  cap_calls 0 (trace (after script)) = [(VRej 1, VPrim 5)] /\
  cap_calls 1 (trace (after script)) = [(VRes 2, VPrim 11)] /\
  cap_calls 2 (trace (after script)) = [(VRej 4, VPrim 12)] /\
  outcome (after script) 1 = Some (Rejected, VPrim 5) /\
  outcome (after script) 2 = Some (Fulfilled, VPrim 11) /\
  outcome (after script) 3 = Some (Rejected, VPrim 12).
Proof. vm_compute. repeat split. Qed.

Print Assumptions C18_no_assertion_fails.
Print Assumptions C18_settled_at_most_once.
Print Assumptions C18_settled_stays.
Print Assumptions C18_later_calls_ignored.
Print Assumptions C18_first_call_decides.
Print Assumptions C18_then_answer_decides.
Print Assumptions C19_jobs_are_due_jobs.
Print Assumptions C19_promise_jobs_in_order.
Print Assumptions C19_exactly_once.
Print Assumptions C19_asynchronous.
Print Assumptions C19_capability_at_most_once.
Print Assumptions C19_capability_when_done.
Print Assumptions C19_handler_result.
Print Assumptions C19_no_handler.
Print Assumptions C19_handler_called.
