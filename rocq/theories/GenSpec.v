(** * The standard's generators

    ECMA-262 (2022), 27.5 generator objects, 27.6 async generator objects and
    15.5.5 [yield*], over the same body and surroundings.  Completion records
    are [inp]: normal, throw, return.

    Three switches turn on the deviations of the code; the standard has all of
    them off. *)

From Coq Require Import List Bool Arith.
From Verif Require Import GenModel.
Import ListNotations.

Record deviations := {
  drained_values : bool;    (* a drained [next(v)] request gives v, not undefined *)
  tail_returns : bool;      (* [return f()] does not await *)
  star_escapes : bool       (* an invalid value of [return(v)] during [yield*] is thrown
                               in the body, not passed to the inner iterator *)
}.

Definition standard : deviations := {| drained_values := false; tail_returns := false; star_escapes := false |}.
Definition all_deviations : deviations := {| drained_values := true; tail_returns := true; star_escapes := true |}.

Section Standard.

Variable A : world.
Variable D : deviations.

Local Notation W := (W A).
Local Notation V := (V A).
Local Notation I := (I A).
Local Notation core := (core A).

Definition completion (k : kind) (v : V) : inp V :=
  match k with KNext => INext v | KThrow => IThrow v | KRet => IRet v end.

(** ** Async generators *)

(** Where the body is suspended: before its first statement; in [await]; in
    the await of a return statement; in the await of yield; in
    AsyncGeneratorYield and in AsyncGeneratorUnwrapYieldResumption, for yield
    or for [yield*] with an inner iterator; in [yield*], awaiting an inner
    result, the inner iterator's closing, or the value of a return. *)
Inductive cont :=
| CStart
| CAwait
| CReturn
| CYieldAwait
| CYield (d : option I)
| CUnwrap (d : option I)
| CInner (k : kind) (it : I)
| CClose
| CRetAwait.

Record sconf := { sg : core; ct : cont }.

Definition s_core (s : sconf) (x : core) : sconf := {| sg := x; ct := ct s |}.
Definition s_cont (s : sconf) (k : cont) : sconf := {| sg := sg s; ct := k |}.
Definition s_wd (s : sconf) (w : W) : sconf := s_core s (set_wd A (sg s) w).

Definition to_body (s : sconf) (c : inp V) : sconf := s_core s (set_md A (sg s) (Run A c)).

(** AsyncGeneratorCompleteStep, 27.6.3.5: the first request of the queue is
    answered. *)
Definition s_answer (x : core) (a : answer A) : core :=
  match q A x with
  | [] => set_md A x (Bad A)
  | r :: t => add_log A (set_q A x t) (LAns A (r_id A r) a)
  end.

(** AsyncGeneratorAwaitReturn and AsyncGeneratorDrainQueue, 27.6.3.9 and
    27.6.3.10. *)
Fixpoint s_drain (l : list (req A)) (x : core) : core :=
  match l with
  | [] => x
  | r :: t =>
      match r_kind A r with
      | KNext => s_drain t (s_answer x (Fulfilled A (if drained_values D then r_val A r else undef A) true))
      | KThrow => s_drain t (s_answer x (Rejected A (r_val A r)))
      | KRet =>
          match w_resolve A (r_val A r) (wd A x) with
          | (w, None) => set_rwait A (set_st A (set_wd A x w) AwaitRet) true
          | (w, Some e) => s_drain t (s_answer (set_wd A x w) (Rejected A e))
          end
      end
  end.

Definition s_drain_all (x : core) : core := s_drain (q A x) x.

(** AsyncGeneratorStart 27.6.3.2, step 4: the body has ended. *)
Definition s_finish (s : sconf) (a : answer A) : sconf :=
  s_core s (s_drain_all (s_answer (set_md A (set_st A (sg s) Completed) (Idle A)) a)).

(** Await, 27.7.5.3: a value that cannot be made a promise throws. *)
Definition s_await (s : sconf) (v : V) (k : cont) (fail : sconf -> V -> sconf) : sconf :=
  match w_resolve A v (wd A (sg s)) with
  | (w, Some e) => fail (s_wd s w) e
  | (w, None) => s_cont (s_core s (set_md A (set_wait A (set_wd A (sg s) w) true) (Idle A))) k
  end.

Definition thrown (s : sconf) (e : V) : sconf := to_body s (IThrow e).

Definition s_do {X : Type} (s : sconf) (f : W -> W * (X + V)) (k : sconf -> X -> sconf) : sconf :=
  match f (wd A (sg s)) with
  | (w, inl x) => k (s_wd s w) x
  | (w, inr e) => thrown (s_wd s w) e
  end.

(** 15.5.5, the loop of [yield*] with [received]. *)
Definition s_star (it : I) (received : inp V) (s : sconf) : sconf :=
  match received with
  | INext v => s_do s (w_next A it v) (fun s ir => s_await s ir (CInner KNext it) thrown)
  | IThrow v =>
      s_do s (w_method A it KThrow) (fun s m =>
        match m with
        | Some m => s_do s (w_call A m it (Some v)) (fun s ir => s_await s ir (CInner KThrow it) thrown)
        | None =>
            s_do s (w_method A it KRet) (fun s m =>
              match m with
              | Some m => s_do s (w_call A m it None) (fun s ir => s_await s ir CClose thrown)
              | None => thrown s (terr A)
              end)
        end)
  | IRet v =>
      s_do s (w_method A it KRet) (fun s m =>
        match m with
        | Some m => s_do s (w_call A m it (Some v)) (fun s ir => s_await s ir (CInner KRet it) thrown)
        | None => s_await s v CRetAwait thrown
        end)
  end.

(** What yield or [yield*] does with its completion. *)
Definition received_by (d : option I) (c : inp V) (s : sconf) : sconf :=
  match d with
  | None => to_body s c
  | Some it => s_star it c s
  end.

(** AsyncGeneratorUnwrapYieldResumption, 27.6.3.7. *)
Definition s_unwrap (d : option I) (c : inp V) (s : sconf) : sconf :=
  match c with
  | IRet v =>
      s_await s v (CUnwrap d) (fun s e =>
        if star_escapes D then thrown s e else received_by d (IThrow e) s)
  | _ => received_by d c s
  end.

(** AsyncGeneratorYield, 27.6.3.8. *)
Definition s_yield (d : option I) (v : V) (s : sconf) : sconf :=
  let x := s_answer (sg s) (Fulfilled A v false) in
  match q A x with
  | r :: _ => s_unwrap d (completion (r_kind A r) (r_val A r)) (s_core s x)
  | [] => s_cont (s_core s (set_md A (set_st A x Suspended) (Idle A))) (CYield d)
  end.

(** The awaited promise was fulfilled or rejected. *)
Definition s_settled (s : sconf) (ok : bool) (v : V) : sconf :=
  let normal := if ok then INext v else IThrow v in
  let return_ := if ok then IRet v else IThrow v in
  match ct s with
  | CAwait => to_body s normal
  | CReturn | CRetAwait => to_body s return_
  | CYieldAwait => if ok then s_yield None v s else thrown s v
  | CUnwrap d => received_by d return_ s
  | CInner k it =>
      if negb ok then thrown s v
      else if negb (is_object A v) then thrown s (terr A)
      else
        s_do s (w_done A v) (fun s done =>
          s_do s (w_value A v) (fun s value =>
            if done then to_body s (match k with KRet => IRet value | _ => INext value end)
            else s_yield (Some it) value s))
  | CClose => thrown s (if ok then terr A else v)
  | CStart | CYield _ => s_core s (set_md A (sg s) (Bad A))
  end.

(** AsyncGeneratorResume, 27.6.3.6. *)
Definition s_resume (s : sconf) (c : inp V) : sconf :=
  let s := s_core s (set_st A (sg s) Exec) in
  match ct s with
  | CStart => to_body s (INext (undef A))
  | CYield d => s_unwrap d c s
  | _ => s_core s (set_md A (sg s) (Bad A))
  end.

(** AsyncGenerator.prototype.next, return and throw, 27.6.1.2 to 27.6.1.4. *)
Definition s_request (s : sconf) (k : kind) (v : V) : sconf :=
  let x := sg s in
  let id := nid A x in
  let x := set_nid A (add_log A x (LReq A id k v)) (S id) in
  let queued y := set_q A y (q A y ++ [{| r_kind := k; r_val := v; r_id := id |}]) in
  match k, st A x with
  | KNext, Completed => s_core s (add_log A x (LAns A id (Fulfilled A (undef A) true)))
  | KThrow, Completed | KThrow, Start =>
      s_core s (add_log A (set_st A x Completed) (LAns A id (Rejected A v)))
  | KRet, Completed | KRet, Start =>
      s_core s (s_drain_all (set_st A (queued x) Completed))
  | KNext, Start | _, Suspended => s_resume (s_core s (queued x)) (completion k v)
  | _, Exec | _, AwaitRet => s_core s (queued x)
  end.

(** The body's next event. *)
Definition s_step (s : sconf) (i : inp V) : sconf :=
  let '(w, b, e) := body A (bd A (sg s)) i (wd A (sg s)) in
  let s := s_core s (set_bd A (set_wd A (sg s) w) b) in
  match e with
  | EYield v => s_await s v CYieldAwait thrown
  | EAwait v => s_await s v CAwait thrown
  | EReturn tail v =>
      if tail && tail_returns D then to_body s (IRet v) else s_await s v CReturn thrown
  | EThrow v => s_finish s (Rejected A v)
  | EDone v => s_finish s (Fulfilled A v true)
  | EStar v => s_do s (w_iter A v) (fun s it => s_star it (INext (undef A)) s)
  | ECall k v => to_body (s_request s k v) (INext (promise A (nid A (sg s))))
  end.

Definition s_act (s : sconf) (a : action A) : sconf :=
  match md A (sg s), a with
  | Run _ i, Tick _ => s_step s i
  | Idle _, Call _ k v => s_request s k v
  | Idle _, Settle _ ok v =>
      if wait A (sg s) then s_settled (s_core s (set_wait A (sg s) false)) ok v else s
  | Idle _, SettleRet _ ok v =>
      if rwait A (sg s) then
        s_core s (s_drain_all (s_answer (set_st A (set_rwait A (sg s) false) Completed)
                                 (if ok then Fulfilled A v true else Rejected A v)))
      else s
  | _, _ => s
  end.

Definition s_start (w : W) : sconf :=
  {| sg := {| st := Start; q := []; log := []; nid := 0; wd := w; bd := body0 A; md := Idle A;
              wait := false; rwait := false |};
     ct := CStart |}.

Definition s_run (s : sconf) (l : list (action A)) : sconf := fold_left s_act l s.

(** ** Generators *)

(** 27.5.3: suspended before the first statement, in a yield, or in
    [yield*]. *)
Inductive place := AtStart | AtYield | AtStar (it : I) | Running (i : inp V) | Over | Wrong.

Record sgen := { pl : place; slog : list (result A); swd : W; sbd : B A }.

Definition z_set (z : sgen) (p : place) : sgen := {| pl := p; slog := slog z; swd := swd z; sbd := sbd z |}.
Definition z_out (z : sgen) (p : place) (r : result A) : sgen :=
  {| pl := p; slog := slog z ++ [r]; swd := swd z; sbd := sbd z |}.
Definition z_wd (z : sgen) (w : W) : sgen := {| pl := pl z; slog := slog z; swd := w; sbd := sbd z |}.
Definition z_throw (z : sgen) (e : V) : sgen := z_set z (Running (IThrow e)).

Definition z_do {X : Type} (z : sgen) (f : W -> W * (X + V)) (k : sgen -> X -> sgen) : sgen :=
  match f (swd z) with
  | (w, inl x) => k (z_wd z w) x
  | (w, inr e) => z_throw (z_wd z w) e
  end.

(** 15.5.5: an inner result; [f] makes the completion from the value of a
    finished iterator. *)
Definition z_inner (z : sgen) (it : I) (ir : V) (f : V -> inp V) : sgen :=
  if is_object A ir then
    z_do z (w_done A ir) (fun z done =>
      if done then z_do z (w_value A ir) (fun z v => z_set z (Running (f v)))
      else z_out z (AtStar it) (Inner A ir))
  else z_throw z (terr A).

Definition z_star (z : sgen) (it : I) (received : inp V) : sgen :=
  match received with
  | INext v => z_do z (w_next A it v) (fun z ir => z_inner z it ir INext)
  | IThrow v =>
      z_do z (w_method A it KThrow) (fun z m =>
        match m with
        | Some m => z_do z (w_call A m it (Some v)) (fun z ir => z_inner z it ir INext)
        | None =>
            (* IteratorClose, then a TypeError in any case *)
            z_do z (w_method A it KRet) (fun z m =>
              match m with
              | Some m => z_do z (w_call A m it None) (fun z _ => z_throw z (terr A))
              | None => z_throw z (terr A)
              end)
        end)
  | IRet v =>
      z_do z (w_method A it KRet) (fun z m =>
        match m with
        | Some m => z_do z (w_call A m it (Some v)) (fun z ir => z_inner z it ir IRet)
        | None => z_set z (Running (IRet v))
        end)
  end.

(** GeneratorResume and GeneratorResumeAbrupt, 27.5.3.3 and 27.5.3.4. *)
Definition z_request (z : sgen) (k : kind) (v : V) : sgen :=
  let over := z_out z Over (match k with
                            | KNext => Result A (undef A) true
                            | KRet => Result A v true
                            | KThrow => Thrown A v
                            end) in
  match pl z with
  | AtStart => match k with KNext => z_set z (Running (INext (undef A))) | _ => over end
  | AtYield => z_set z (Running (completion k v))
  | AtStar it => z_star z it (completion k v)
  | Over => over
  | Running _ | Wrong => z
  end.

Definition z_step (z : sgen) (i : inp V) : sgen :=
  let '(w, b, e) := body A (sbd z) i (swd z) in
  let z := {| pl := pl z; slog := slog z; swd := w; sbd := b |} in
  match e with
  | EYield v => z_out z AtYield (Result A v false)
  | EStar v => z_do z (w_iter A v) (fun z it => z_star z it (INext (undef A)))
  | EAwait _ => z_set z Wrong
  | EReturn _ v => z_set z (Running (IRet v))
  | EThrow v => z_out z Over (Thrown A v)
  | EDone v => z_out z Over (Result A v true)
  | ECall _ _ => z_throw z (terr A)        (* the generator is running *)
  end.

Definition z_act (z : sgen) (a : option (kind * V)) : sgen :=
  match pl z, a with
  | Running i, None => z_step z i
  | Running _, Some _ | Wrong, _ | _, None => z
  | _, Some (k, v) => z_request z k v
  end.

Definition z_start (w : W) : sgen := {| pl := AtStart; slog := []; swd := w; sbd := body0 A |}.

Definition z_run (z : sgen) (l : list (option (kind * V))) : sgen := fold_left z_act l z.

End Standard.

(** ** Statements *)

(** The requests answered, in order, and all requests. *)
Fixpoint answered {A : world} (l : list (entry A)) : list nat :=
  match l with
  | [] => []
  | LAns _ id _ :: t => id :: answered t
  | LReq _ _ _ _ :: t => answered t
  end.

Fixpoint requested {A : world} (l : list (entry A)) : list nat :=
  match l with
  | [] => []
  | LReq _ id _ _ :: t => id :: requested t
  | LAns _ _ _ :: t => requested t
  end.

(** The body keeps off the deviations. *)
Definition event_plain (A : world) (e : event (V A)) : Prop :=
  match e with
  | EReturn tail _ => tail = false
  | ECall KNext v => v = undef A
  | _ => True
  end.

Definition body_plain (A : world) : Prop := forall b i w, event_plain A (snd (body A b i w)).

Definition action_plain (A : world) (a : action A) : Prop :=
  match a with Call _ KNext v => v = undef A | _ => True end.

(** Every value can be made a promise (only a promise with a broken
    [constructor] property cannot), or the body has no [yield*]. *)
Definition always_resolves (A : world) : Prop := forall v w, snd (w_resolve A v w) = None.
Definition no_star (A : world) : Prop :=
  forall b i w, match snd (body A b i w) with EStar _ => False | _ => True end.
