(** What promises have to do, stated on histories alone (C18, C19).

    The history records what happened: registrations by then, settlements,
    adoptions of thenables and starts of jobs.  The jobs that are due, in order,
    are computed here from registrations, settlements and adoptions only. *)
From Coq Require Import List ZArith Bool Arith.
Import ListNotations.
From Verif Require Import PromiseModel.

(** The settlements of promise [p] in a history. *)
Fixpoint settlements (p : nat) (t : list event) : list (pstate * val) :=
  match t with
  | [] => []
  | ESettle q st v :: t => if q =? p then (st, v) :: settlements p t else settlements p t
  | _ :: t => settlements p t
  end.

(** A registration: number, both handlers, capability. *)
Record reg := Reg { g_num : nat; g_ful : val; g_rej : val; g_cap : cap }.

(** The registrations on promise [p], in order. *)
Fixpoint regs (p : nat) (t : list event) : list reg :=
  match t with
  | [] => []
  | EReg n q f r c :: t => if q =? p then Reg n f r c :: regs p t else regs p t
  | _ :: t => regs p t
  end.

(** The job a registration on [p] gives once [p] is settled: the handler of the
    right kind if it is a function, the result of the promise as argument. *)
Definition due_job (p : nat) (g : reg) (st : pstate) (v : val) : job :=
  match st with
  | Rejected =>
    JReact (React RRej (if callable (g_rej g) then g_rej g else VUndef)
                  (g_cap g) p (g_num g)) v
  | _ =>
    JReact (React RFul (if callable (g_ful g) then g_ful g else VUndef)
                  (g_cap g) p (g_num g)) v
  end.

(** The jobs event [e] makes due after the history [t]. *)
Definition due_of (t : list event) (e : event) : list job :=
  match e with
  | EReg n p f r c =>
    match settlements p t with
    | [] => []
    | (st, v) :: _ => [due_job p (Reg n f r c) st v]
    end
  | ESettle p st v => map (fun g => due_job p g st v) (regs p t)
  | EAdopt p v h => [JThen p v h]
  | _ => []
  end.

Fixpoint due (past t : list event) : list job :=
  match t with
  | [] => []
  | e :: t => due_of past e ++ due (past ++ [e]) t
  end.

(** The jobs started, in order. *)
Fixpoint started (t : list event) : list job :=
  match t with
  | [] => []
  | ERun j :: t => j :: started t
  | _ :: t => started t
  end.

(** Is the job a reaction registered on [p]? *)
Definition of_prom (p : nat) (j : job) : bool :=
  match j with JReact r _ => r_src r =? p | _ => false end.

(** Is the job the reaction of registration [n]? *)
Definition of_reg (n : nat) (j : job) : bool :=
  match j with JReact r _ => r_reg r =? n | _ => false end.

(** Was a function of the pair [i] called? *)
Definition called (i : nat) (t : list event) : Prop := In (ECalled i) t.

(** The calls of the capability functions of registration [n]. *)
Fixpoint cap_calls (n : nat) (t : list event) : list (val * val) :=
  match t with
  | [] => []
  | ECap m f v :: t => if m =? n then (f, v) :: cap_calls n t else cap_calls n t
  | _ :: t => cap_calls n t
  end.

(** State and result of promise [p]. *)
Definition outcome (s : state) (p : nat) : option (pstate * val) :=
  match nth_error (proms s) p with
  | Some x => match p_state x with Pending => None | st => Some (st, p_result x) end
  | None => None
  end.
