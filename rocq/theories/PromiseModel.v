(** Model of promises: src/lib/rjs_promise.c.

    The script is an adversary: between the atomic steps of the engine code it
    may create promises, call any resolving function with any value, register
    reactions, start the next job, answer a [[Get]] of "then" and return from
    or throw out of a function the engine called.  Every real execution is one
    such sequence of actions; C theorems about all sequences hold for it.
    An action that names something that does not exist is [Stuck]; a failed
    assert of the C code is [AssertFail].

    The job list of rjs_job.c is the list [queue]; that jobs leave it in order
    is property C17 (a job that itself calls solveJobs is outside this model).
    Not modelled: realms of the jobs, the error_flag of the runtime,
    allocation failure, garbage collection of the records (C14). *)
From Coq Require Import List ZArith Bool Arith.
Import ListNotations.

(** JavaScript values as far as promises tell them apart: non-objects, objects
    without and with [[Call]], promises (by number), the resolving functions of
    status record [s] (create_resolving_function, rjs_promise.c:168-182) and
    the TypeError object made by promise_resolve_nf. *)
Inductive val :=
| VUndef | VPrim (z : Z) | VObj (z : Z) | VFun (z : Z)
| VProm (p : nat) | VRes (s : nat) | VRej (s : nat) | VTypeErr.

(** rjs_value_is_object *)
Definition is_object (v : val) : bool :=
  match v with VUndef | VPrim _ => false | _ => true end.
(** rjs_is_callable *)
Definition callable (v : val) : bool :=
  match v with VFun _ | VRes _ | VRej _ => true | _ => false end.
(** rjs_same_value against a promise *)
Definition same_promise (v : val) (p : nat) : bool :=
  match v with VProm q => q =? p | _ => false end.
Definition is_undef (v : val) : bool := match v with VUndef => true | _ => false end.

(** RJS_PromiseState, RJS_PromiseRectionType: src/lib/include/rjs_promise.h *)
Inductive pstate := Pending | Fulfilled | Rejected.
Inductive rtype := RFul | RRej.

(** RJS_PromiseCapability: src/lib/include/rjs_promise.h *)
Record cap := Cap { c_promise : val; c_resolve : val; c_reject : val }.
Definition cap_none := Cap VUndef VUndef VUndef.

(** RJS_PromiseReaction.  [r_src] and [r_reg] are ghosts: the promise the
    reaction was registered on and the number of the registration. *)
Record reaction := React {
  r_type : rtype; r_handler : val; r_cap : cap; r_src : nat; r_reg : nat }.

(** RJS_Promise *)
Record prom := Prom {
  p_state : pstate; p_result : val; p_handled : bool;
  p_ful : list reaction; p_rej : list reaction }.

(** RJS_PromiseThenParams and RJS_PromiseReactionParams, rjs_promise.c:29-39 *)
Inductive job :=
| JThen (p : nat) (thenable then_ : val)
| JReact (r : reaction) (arg : val).

(** What the engine does when a function it called comes back: the executor
    (rjs_promise.c:502-507), the "then" of a thenable (200-205), a handler
    (249-262). *)
Inductive frame := FExec (s : nat) | FThen (s : nat) | FReact (r : reaction).

(** Ghost history. *)
Inductive event :=
| EReg (n p : nat) (f r : val) (c : cap)     (* then was performed *)
| ESettle (p : nat) (st : pstate) (v : val)  (* the promise was settled *)
| EAdopt (p : nat) (thenable then_ : val)    (* a then job was enqueued *)
| ECalled (s : nat)                          (* a resolving function was called *)
| ERun (j : job)                             (* a job was started *)
| ECap (n : nat) (f v : val).                (* a capability function was called *)

(** [statuses]: RJS_PromiseStatus records as (promise, resolved);
    [gets]: calls of promise_resolve_nf waiting for the [[Get]] of "then". *)
Record state := St {
  proms : list prom;
  statuses : list (nat * bool);
  gets : list (nat * val);
  queue : list job;
  frames : list frame;
  nreg : nat;
  trace : list event }.

Inductive out := Ok (s : state) | Stuck | AssertFail.
Definition bind (o : out) (k : state -> out) : out :=
  match o with Ok s => k s | Stuck => Stuck | AssertFail => AssertFail end.

Definition init := St [] [] [] [] [] 0 [].

Fixpoint upd {A} (l : list A) (i : nat) (x : A) : list A :=
  match l, i with
  | [], _ => []
  | _ :: t, O => x :: t
  | y :: t, S i' => y :: upd t i' x
  end.
Fixpoint del {A} (l : list A) (i : nat) : list A :=
  match l, i with
  | [], _ => []
  | _ :: t, O => t
  | y :: t, S i' => y :: del t i'
  end.

Definition set_prom (s : state) (p : nat) (x : prom) : state :=
  St (upd (proms s) p x) (statuses s) (gets s) (queue s) (frames s) (nreg s) (trace s).
Definition set_status (s : state) (i : nat) (x : nat * bool) : state :=
  St (proms s) (upd (statuses s) i x) (gets s) (queue s) (frames s) (nreg s) (trace s).
Definition add_get (s : state) (x : nat * val) : state :=
  St (proms s) (statuses s) (gets s ++ [x]) (queue s) (frames s) (nreg s) (trace s).
(** rjs_job_enqueue, rjs_job.c:49-68 *)
Definition enqueue (s : state) (j : job) : state :=
  St (proms s) (statuses s) (gets s) (queue s ++ [j]) (frames s) (nreg s) (trace s).
Definition add_frame (s : state) (f : frame) : state :=
  St (proms s) (statuses s) (gets s) (queue s) (frames s ++ [f]) (nreg s) (trace s).
Definition emit (s : state) (e : event) : state :=
  St (proms s) (statuses s) (gets s) (queue s) (frames s) (nreg s) (trace s ++ [e]).

(** promise_status_new, rjs_promise.c:152-165 *)
Definition status_new (s : state) (p : nat) : state * nat :=
  (St (proms s) (statuses s ++ [(p, false)]) (gets s) (queue s) (frames s) (nreg s) (trace s),
   length (statuses s)).

(** The record made in rjs_promise_new, rjs_promise.c:485-496 *)
Definition prom_new (s : state) : state * nat :=
  (St (proms s ++ [Prom Pending VUndef false [] []]) (statuses s) (gets s) (queue s)
      (frames s) (nreg s) (trace s),
   length (proms s)).

(** trigger_promise_reactions, rjs_promise.c:267-303 *)
Definition trigger_promise_reactions (s : state) (l : list reaction) (v : val) : state :=
  fold_left (fun s r => enqueue s (JReact r v)) l s.

(** fulfill_promise, rjs_promise.c:306-329 *)
Definition fulfill_promise (s : state) (p : nat) (v : val) : out :=
  match nth_error (proms s) p with
  | None => Stuck
  | Some x =>
    match p_state x with
    | Pending =>
      let s := set_prom s p (Prom Fulfilled v (p_handled x) [] []) in
      let s := emit s (ESettle p Fulfilled v) in
      Ok (trigger_promise_reactions s (p_ful x) v)
    | _ => AssertFail
    end
  end.

(** reject_promise, rjs_promise.c:332-358 *)
Definition reject_promise (s : state) (p : nat) (v : val) : out :=
  match nth_error (proms s) p with
  | None => Stuck
  | Some x =>
    match p_state x with
    | Pending =>
      let s := set_prom s p (Prom Rejected v (p_handled x) [] []) in
      let s := emit s (ESettle p Rejected v) in
      Ok (trigger_promise_reactions s (p_rej x) v)
    | _ => AssertFail
    end
  end.

(** promise_resolve_nf, rjs_promise.c:381-436, up to the [[Get]] of "then" *)
Definition promise_resolve_nf (s : state) (i : nat) (v : val) : out :=
  match nth_error (statuses s) i with
  | None => Stuck
  | Some (p, resolved) =>
    let s := emit s (ECalled i) in
    if resolved then Ok s
    else
      let s := set_status s i (p, true) in
      if same_promise v p then reject_promise s p VTypeErr
      else if negb (is_object v) then fulfill_promise s p v
      else Ok (add_get s (p, v))
  end.

(** What [[Get]] of "then" gave: rjs_promise.c:408-417 *)
Inductive got := GThrow (e : val) | GValue (v : val).

(** promise_resolve_nf after the [[Get]], rjs_promise.c:408-432 *)
Definition resolve_got (s : state) (p : nat) (v : val) (g : got) : out :=
  match g with
  | GThrow e => reject_promise s p e
  | GValue h =>
    if negb (callable h) then fulfill_promise s p v
    else Ok (enqueue (emit s (EAdopt p v h)) (JThen p v h))
  end.

(** promise_reject_nf, rjs_promise.c:439-453 *)
Definition promise_reject_nf (s : state) (i : nat) (v : val) : out :=
  match nth_error (statuses s) i with
  | None => Stuck
  | Some (p, resolved) =>
    let s := emit s (ECalled i) in
    if resolved then Ok s else reject_promise (set_status s i (p, true)) p v
  end.

(** rjs_call of a function value: a resolving function runs at once, any other
    function is the script's. *)
Definition call (s : state) (f v : val) : out :=
  match f with
  | VRes i => promise_resolve_nf s i v
  | VRej i => promise_reject_nf s i v
  | _ => Ok s
  end.

(** promise_reaction_init, rjs_promise.c:655-675 *)
Definition reaction_new (c : cap) (t : rtype) (h : val) (p n : nat) : reaction :=
  React t (if callable h then h else VUndef) c p n.

(** rjs_perform_proimise_then, rjs_promise.c:702-770 *)
Definition perform_promise_then (s : state) (p : nat) (f r : val) (c : cap) : out :=
  match nth_error (proms s) p with
  | None => Stuck
  | Some x =>
    let n := nreg s in
    let s := St (proms s) (statuses s) (gets s) (queue s) (frames s) (S n)
                (trace s ++ [EReg n p f r c]) in
    match p_state x with
    | Pending =>
      Ok (set_prom s p
            (Prom Pending (p_result x) true
               (p_ful x ++ [reaction_new c RFul f p n])
               (p_rej x ++ [reaction_new c RRej r p n])))
    | Fulfilled =>
      let s := enqueue s (JReact (reaction_new c RFul f p n) (p_result x)) in
      Ok (set_prom s p (Prom Fulfilled (p_result x) true (p_ful x) (p_rej x)))
    | Rejected =>
      let s := enqueue s (JReact (reaction_new c RRej r p n) (p_result x)) in
      Ok (set_prom s p (Prom Rejected (p_result x) true (p_ful x) (p_rej x)))
    end
  end.

(** The end of promise_reaction_job, rjs_promise.c:256-262 *)
Definition reaction_done (s : state) (r : reaction) (ok : bool) (v : val) : out :=
  if is_undef (c_promise (r_cap r)) then Ok s
  else
    let f := if ok then c_resolve (r_cap r) else c_reject (r_cap r) in
    call (emit s (ECap (r_reg r) f v)) f v.

(** promise_reaction_job, rjs_promise.c:235-264 *)
Definition promise_reaction_job (s : state) (r : reaction) (arg : val) : out :=
  if is_undef (r_handler r) then
    reaction_done s r (match r_type r with RFul => true | RRej => false end) arg
  else call (add_frame s (FReact r)) (r_handler r) arg.

(** promise_then_job, rjs_promise.c:185-210: the "then" function is the script's
    or a resolving function, called with the new pair. *)
Definition promise_then_job (s : state) (p : nat) (thenable then_ : val) : out :=
  let (s, i) := status_new s p in
  call (add_frame s (FThen i)) then_ (VRes i).

(** How a called function ended. *)
Inductive ret := RNormal (v : val) | RThrow (e : val).

(** Continuation of the engine after the called function ended. *)
Definition return_to (s : state) (f : frame) (o : ret) : out :=
  match f, o with
  | FExec _, RNormal _ | FThen _, RNormal _ => Ok s
  | FExec i, RThrow e | FThen i, RThrow e => promise_reject_nf s i e
  | FReact r, RNormal v => reaction_done s r true v
  | FReact r, RThrow e => reaction_done s r false e
  end.

Inductive action :=
| ANew                                   (* new Promise(executor): executor called *)
| AResolve (i : nat) (v : val)           (* script calls a resolve function *)
| AReject (i : nat) (v : val)            (* script calls a reject function *)
| AGet (k : nat) (g : got)               (* the [[Get]] number k is answered *)
| AThen (p : nat) (f r : val) (c : cap)  (* then with a capability of the script *)
| AThenNew (p : nat) (f r : val)         (* Promise.prototype.then, built-in capability *)
| AJob                                   (* rjs_solve_jobs takes the next job *)
| AReturn (k : nat) (o : ret).           (* the function of frame k ends *)

Definition step (s : state) (a : action) : out :=
  match a with
  | ANew =>
    let (s, p) := prom_new s in
    let (s, i) := status_new s p in
    Ok (add_frame s (FExec i))
  | AResolve i v => promise_resolve_nf s i v
  | AReject i v => promise_reject_nf s i v
  | AGet k g =>
    match nth_error (gets s) k with
    | None => Stuck
    | Some (p, v) =>
      resolve_got (St (proms s) (statuses s) (del (gets s) k) (queue s) (frames s)
                      (nreg s) (trace s)) p v g
    end
  | AThen p f r c => perform_promise_then s p f r c
  | AThenNew p f r =>
    let (s, q) := prom_new s in
    let (s, i) := status_new s q in
    perform_promise_then s p f r (Cap (VProm q) (VRes i) (VRej i))
  | AJob =>
    match queue s with
    | [] => Stuck
    | j :: q =>
      let s := St (proms s) (statuses s) (gets s) q (frames s) (nreg s)
                  (trace s ++ [ERun j]) in
      match j with
      | JThen p t h => promise_then_job s p t h
      | JReact r arg => promise_reaction_job s r arg
      end
    end
  | AReturn k o =>
    match nth_error (frames s) k with
    | None => Stuck
    | Some f =>
      return_to (St (proms s) (statuses s) (gets s) (queue s) (del (frames s) k)
                    (nreg s) (trace s)) f o
    end
  end.

Fixpoint run (s : state) (l : list action) : out :=
  match l with
  | [] => Ok s
  | a :: t => bind (step s a) (fun s => run s t)
  end.
