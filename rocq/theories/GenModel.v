(** * Generators and async generators

    Model of [src/lib/rjs_generator_opt.c] (async generator requests 165-330,
    queue 333-440, resumption 443-523, async [yield*] 525-728, request methods
    748-913, start and resume 917-1066, yield 1168-1240, [yield*] 1249-1410),
    the end of a body in [src/lib/rjs_script.c]:902-972, await in
    [src/lib/rjs_operation.c]:1536-1620, the resume code of [rjs_bc_call]
    ([src/lib/rjs_bc_call.c]:30-62, 350-392, 1250-1303) and the code made for
    yield, [yield*], await and return ([src/lib/rjs_bc_gen.c]:313-395,
    2613-2685).

    The body of the generator is an arbitrary coroutine; the promises it awaits
    are settled from outside, in any order of events.  Left out: contexts,
    realms and the collector; the stale error register (see the statements
    model); scripts called while a request's promise is resolved (a getter
    [then] on [Object.prototype]). *)

From Coq Require Import List Bool Arith.
Import ListNotations.

(** [RJS_GeneratorRequestType] without END: what [next], [throw] and [return]
    ask for. *)
Inductive kind := KNext | KThrow | KRet.

(** How the body goes on: with a value, an exception or a return. *)
Inductive inp (V : Type) := INext (v : V) | IThrow (v : V) | IRet (v : V).
Arguments INext {V}. Arguments IThrow {V}. Arguments IRet {V}.

(** What the body does next.  [EReturn tail v] is a return statement; [tail]
    tells that its expression is a call in tail position.  [EDone v] is the end
    of the body, after all finally blocks.  [ECall] is a call of a method of
    the generator itself. *)
Inductive event (V : Type) :=
| EYield (v : V)
| EStar (v : V)
| EAwait (v : V)
| EReturn (tail : bool) (v : V)
| EThrow (v : V)
| EDone (v : V)
| ECall (k : kind) (v : V).
Arguments EYield {V}. Arguments EStar {V}. Arguments EAwait {V}. Arguments EReturn {V}.
Arguments EThrow {V}. Arguments EDone {V}. Arguments ECall {V}.

(** Everything outside: the body and the operations that run other code.  A
    result [inr e] is an exception. *)
Record world := {
  W : Type; V : Type; B : Type; I : Type;
  undef : V;
  terr : V;                                     (* a TypeError *)
  promise : nat -> V;                           (* the promise of request n *)
  body0 : B;
  body : B -> inp V -> W -> W * B * event V;
  w_resolve : V -> W -> W * option V;           (* rjs_promise_resolve *)
  w_iter : V -> W -> W * (I + V);               (* rjs_get_iterator *)
  w_next : I -> V -> W -> W * (V + V);          (* call of next_method *)
  w_method : I -> kind -> W -> W * (option V + V);  (* rjs_get_method *)
  w_call : V -> I -> option V -> W -> W * (V + V);  (* rjs_call *)
  is_object : V -> bool;
  w_done : V -> W -> W * (bool + V);            (* rjs_iterator_complete *)
  w_value : V -> W -> W * (V + V)               (* rjs_iterator_value *)
}.

Section Generators.

Variable A : world.

Local Notation W := (W A).
Local Notation V := (V A).
Local Notation B := (B A).
Local Notation I := (I A).

(** [RJS_GENERATOR_STATE_*]. *)
Inductive gstate := Start | Suspended | Exec | AwaitRet | Completed.

Inductive mode := Run (i : inp V) | Idle | Bad.

(** ** Async generators *)

(** [RJS_AsyncGeneratorRequest]; the capability is a number. *)
Record req := { r_kind : kind; r_val : V; r_id : nat }.

Inductive answer := Fulfilled (v : V) (done : bool) | Rejected (v : V).
Inductive entry := LReq (id : nat) (k : kind) (v : V) | LAns (id : nat) (a : answer).

(** The generator and its surroundings.  [wait] and [rwait]: a reaction
    resuming the body, or [async_generator_await_return_*], is registered with
    a promise. *)
Record core := {
  st : gstate; q : list req; log : list entry; nid : nat;
  wd : W; bd : B; md : mode; wait : bool; rwait : bool }.

Definition set_st g x := {| st := x; q := q g; log := log g; nid := nid g; wd := wd g; bd := bd g; md := md g; wait := wait g; rwait := rwait g |}.
Definition set_q g x := {| st := st g; q := x; log := log g; nid := nid g; wd := wd g; bd := bd g; md := md g; wait := wait g; rwait := rwait g |}.
Definition add_log g x := {| st := st g; q := q g; log := log g ++ [x]; nid := nid g; wd := wd g; bd := bd g; md := md g; wait := wait g; rwait := rwait g |}.
Definition set_nid g x := {| st := st g; q := q g; log := log g; nid := x; wd := wd g; bd := bd g; md := md g; wait := wait g; rwait := rwait g |}.
Definition set_wd g x := {| st := st g; q := q g; log := log g; nid := nid g; wd := x; bd := bd g; md := md g; wait := wait g; rwait := rwait g |}.
Definition set_bd g x := {| st := st g; q := q g; log := log g; nid := nid g; wd := wd g; bd := x; md := md g; wait := wait g; rwait := rwait g |}.
Definition set_md g x := {| st := st g; q := q g; log := log g; nid := nid g; wd := wd g; bd := bd g; md := x; wait := wait g; rwait := rwait g |}.
Definition set_wait g x := {| st := st g; q := q g; log := log g; nid := nid g; wd := wd g; bd := bd g; md := md g; wait := x; rwait := rwait g |}.
Definition set_rwait g x := {| st := st g; q := q g; log := log g; nid := nid g; wd := wd g; bd := bd g; md := md g; wait := wait g; rwait := x |}.

(** Where the byte code stands: at its start, at [yield_resume], behind it, at
    [yield_iter_next], at [await_resume], at the [await_resume] of a return
    statement. *)
Inductive point := PStart | PYield | PAfter | PStar | PAwait | PReturn.

(** [ac->op]: [await_command], [await_async_generator_yield],
    [await_async_generator_yield_return],
    [await_async_generator_iterator_yield_next],
    [await_async_generator_iterator_next],
    [await_async_generator_iterator_return], [await_throw_type_error],
    [await_async_generator_iterator_yield_return_undefined]. *)
Inductive aop := OCommand | OYield | OYieldRet | OInner | OReq | OReqRet | OTypeErr | ORetUndef.

(** [received_type] with END. *)
Inductive rtype := TReq (k : kind) | TEnd.

Record config := { g : core; op : option aop; ip : point; rk : rtype; rv : V; itr : option I }.

Definition set_g c x := {| g := x; op := op c; ip := ip c; rk := rk c; rv := rv c; itr := itr c |}.
Definition set_op c x := {| g := g c; op := x; ip := ip c; rk := rk c; rv := rv c; itr := itr c |}.
Definition set_ip c x := {| g := g c; op := op c; ip := x; rk := rk c; rv := rv c; itr := itr c |}.
Definition set_recv c k v := {| g := g c; op := op c; ip := ip c; rk := k; rv := v; itr := itr c |}.
Definition set_itr c x := {| g := g c; op := op c; ip := ip c; rk := rk c; rv := rv c; itr := x |}.

Definition go (c : config) (m : mode) : config := set_g c (set_md (g c) m).
Definition with_wd (c : config) (w : W) : config := set_g c (set_wd (g c) w).

(** [rjs_async_generator_complete_step], 199-235. *)
Definition complete_step (g : core) (k : kind) (v : V) (done : bool) : core :=
  match q g with
  | [] => set_md g Bad
  | r :: t =>
      match k with
      | KThrow => set_q (add_log g (LAns (r_id r) (Rejected v))) t
      | KNext => set_q (add_log g (LAns (r_id r) (Fulfilled v done))) t
      | KRet => set_md g Bad
      end
  end.

(** [rjs_async_generator_drain_queue], 421-440, with
    [async_generator_await_return], 369-411, which comes back to it. *)
Fixpoint drain (l : list req) (g : core) : core :=
  match l with
  | [] => g
  | r :: t =>
      match r_kind r with
      | KRet =>
          let g := set_st g AwaitRet in
          match w_resolve A (r_val r) (wd g) with
          | (w, Some e) => drain t (complete_step (set_st (set_wd g w) Completed) KThrow e true)
          | (w, None) => set_rwait (set_wd g w) true
          end
      | k => drain t (complete_step g k (r_val r) true)
      end
  end.

Definition drain_queue (g : core) : core :=
  match st g with Completed => drain (q g) g | _ => set_md g Bad end.

Definition await_return (g : core) : core :=
  match q g with
  | [] => set_md g Bad
  | r :: _ =>
      match r_kind r with
      | KRet =>
          match w_resolve A (r_val r) (wd g) with
          | (w, Some e) => drain_queue (complete_step (set_st (set_wd g w) Completed) KThrow e true)
          | (w, None) => set_rwait (set_wd g w) true
          end
      | _ => set_md g Bad
      end
  end.

(** The reactions [async_generator_await_return_fulfill] and [_reject],
    333-366. *)
Definition await_return_settled (g : core) (ok : bool) (v : V) : core :=
  drain_queue (complete_step (set_st (set_rwait g false) Completed) (if ok then KNext else KThrow) v true).

(** [rjs_await]: register the reaction and suspend, or throw. *)
Definition await (c : config) (v : V) (o : aop) (p : point) : config :=
  match w_resolve A v (wd (g c)) with
  | (w, Some e) => go (with_wd c w) (Run (IThrow e))
  | (w, None) => go (set_ip (set_op (set_g c (set_wait (set_wd (g c) w) true)) (Some o)) p) Idle
  end.

(** The end of the body, [rjs_script.c]:918-950. *)
Definition finish (c : config) (k : kind) (v : V) : config :=
  set_g c (drain_queue (complete_step (set_md (set_st (g c) Completed) Idle) k v true)).

(** [yield_resume], 1199-1241, with
    [async_generator_unwrap_yield_resumption], 452-475. *)
Definition yield_resume (c : config) : config :=
  match q (g c) with
  | [] => go c Bad
  | r :: _ =>
      match r_kind r with
      | KNext => go (set_recv c (TReq KNext) (r_val r)) (Run (INext (r_val r)))
      | KThrow => go (set_recv c (TReq KThrow) (r_val r)) (Run (IThrow (r_val r)))
      | KRet => await c (r_val r) OYieldRet PAfter
      end
  end.

(** An exception of the operation reaches the body. *)
Definition or_throw {X : Type} (c : config) (a : W * (X + V)) (f : config -> X -> config) : config :=
  match a with
  | (w, inl x) => f (with_wd c w) x
  | (w, inr e) => go (with_wd c w) (Run (IThrow e))
  end.

(** [async_generator_iterator_yield_next], 667-728. *)
Definition star_next (c : config) : config :=
  match itr c with
  | None => go c Bad
  | Some it =>
      match rk c with
      | TReq KNext =>
          or_throw c (w_next A it (rv c) (wd (g c))) (fun c ir => await c ir OInner PStar)
      | TReq KThrow =>
          or_throw c (w_method A it KThrow (wd (g c))) (fun c fn =>
            match fn with
            | Some fn =>
                or_throw c (w_call A fn it (Some (rv c)) (wd (g c))) (fun c ir => await c ir OInner PStar)
            | None =>                        (* rjs_async_iterator_close *)
                or_throw c (w_method A it KRet (wd (g c))) (fun c fn =>
                  match fn with
                  | None => go c (Run (IThrow (terr A)))
                  | Some fn =>
                      or_throw c (w_call A fn it None (wd (g c))) (fun c res => await c res OTypeErr PStar)
                  end)
            end)
      | TReq KRet =>
          or_throw c (w_method A it KRet (wd (g c))) (fun c fn =>
            match fn with
            | None => await c (rv c) ORetUndef PStar
            | Some fn =>
                or_throw c (w_call A fn it (Some (rv c)) (wd (g c))) (fun c ir => await c ir OInner PStar)
            end)
      | TEnd => go c (Run (INext (rv c)))
      end
  end.

(** [async_generator_iterator_next], 544-567, then [yield_iter_next] again. *)
Definition star_request (c : config) : config :=
  match q (g c) with
  | [] => go c Bad
  | r :: _ =>
      match r_kind r with
      | KNext => star_next (set_recv c (TReq KNext) (r_val r))
      | KThrow => star_next (set_recv c (TReq KThrow) (r_val r))
      | KRet => await c (r_val r) OReqRet PStar
      end
  end.

(** Go on at the place where the code stands. *)
Definition continue (c : config) (iv : V) : config :=
  match ip c with
  | PStart => go c (Run (INext (undef A)))
  | PYield => yield_resume c
  | PAfter => go c Bad
  | PStar => star_next c
  | PAwait => go c (Run (INext iv))
  | PReturn => go c (Run (IRet iv))
  end.

(** [await_async_generator_yield], 490-523: answer the request; [f] goes on if
    there is another one. *)
Definition yielded (c : config) (v : V) (o : option aop) (f : config -> config) : config :=
  let g1 := complete_step (g c) KNext v false in
  match q g1 with
  | [] => set_op (go (set_g c (set_st g1 Suspended)) (match md g1 with Bad => Bad | _ => Idle end)) o
  | _ => f (set_g c g1)
  end.

(** [rjs_bc_call.c]:1284-1303: run [ac->op], then the code. *)
Definition resume (c : config) (ok : bool) (iv : V) : config :=
  let c1 := set_op c None in
  match op c with
  | None => continue c1 iv
  | Some o =>
      if negb ok then
        match o with
        | OReqRet => star_next (set_recv c1 (TReq KThrow) iv)
        | _ => go c1 (Run (IThrow iv))
        end
      else
        match o with
        | OCommand => continue c1 iv
        | OYield => yielded c1 iv None (fun c => continue c iv)
        | OYieldRet | ORetUndef => go c1 (Run (IRet iv))
        | OTypeErr => go c1 (Run (IThrow (terr A)))
        | OReqRet => star_next (set_recv c1 (TReq KRet) iv)
        | OReq => star_request c1
        | OInner =>                                              (* 584-640 *)
            if negb (is_object A iv) then go c1 (Run (IThrow (terr A)))
            else
              or_throw c1 (w_done A iv (wd (g c1))) (fun c done =>
                or_throw c (w_value A iv (wd (g c))) (fun c v =>
                  if done then
                    match rk c with
                    | TReq KRet => go c (Run (IRet v))
                    | _ => star_next (set_recv c TEnd v)
                    end
                  else yielded c v (Some OReq) star_request))
        end
  end.

(** [async_generator_resume], 748-768. *)
Definition resume_generator (c : config) (v : V) : config :=
  resume (set_g c (set_st (g c) Exec)) true v.

Definition enqueue (g : core) (k : kind) (v : V) : core :=
  set_q g (q g ++ [{| r_kind := k; r_val := v; r_id := nid g - 1 |}]).

(** [rjs_async_generator_next], [_throw] and [_return], 779-913. *)
Definition request (c : config) (k : kind) (v : V) : config :=
  let id := nid (g c) in
  let c := set_g c (add_log (set_nid (g c) (id + 1)) (LReq id k v)) in
  match k with
  | KNext =>
      match st (g c) with
      | Completed => set_g c (add_log (g c) (LAns id (Fulfilled (undef A) true)))
      | s =>
          let c := set_g c (enqueue (g c) k v) in
          match s with
          | Suspended | Start => resume_generator c v
          | _ => c
          end
      end
  | KRet =>
      let c := set_g c (enqueue (g c) k v) in
      match st (g c) with
      | Completed | Start => set_g c (await_return (set_st (g c) AwaitRet))
      | Suspended => resume_generator c v
      | _ => c
      end
  | KThrow =>
      let c := match st (g c) with Start => set_g c (set_st (g c) Completed) | _ => c end in
      match st (g c) with
      | Completed => set_g c (add_log (g c) (LAns id (Rejected v)))
      | s =>
          let c := set_g c (enqueue (g c) k v) in
          match s with
          | Suspended => resume_generator c v
          | _ => c
          end
      end
  end.

(** The body runs up to its next event: [rjs_yield] 1168-1189,
    [rjs_iterator_yield_start] 1249-1272, [bc_await], [bc_gen_return_stmt]. *)
Definition step (c : config) (i : inp V) : config :=
  let '(w, b, e) := body A (bd (g c)) i (wd (g c)) in
  let c := set_g c (set_bd (set_wd (g c) w) b) in
  match e with
  | EYield v => await c v OYield PYield
  | EAwait v => await c v OCommand PAwait
  | EReturn true v => go c (Run (IRet v))
  | EReturn false v => await c v OCommand PReturn
  | EThrow v => finish c KThrow v
  | EDone v => finish c KNext v
  | EStar v =>
      or_throw c (w_iter A v (wd (g c))) (fun c it =>
        star_next (set_itr (set_recv c (TReq KNext) (undef A)) (Some it)))
  | ECall k v =>
      let id := nid (g c) in
      go (request c k v) (Run (INext (promise A id)))
  end.

(** What happens to a generator: its body goes on, a method is called, the
    awaited promise is settled, the promise of a return is settled. *)
Inductive action := Tick | Call (k : kind) (v : V) | Settle (ok : bool) (v : V) | SettleRet (ok : bool) (v : V).

Definition act (c : config) (a : action) : config :=
  match md (g c), a with
  | Run i, Tick => step c i
  | Idle, Call k v => request c k v
  | Idle, Settle ok v =>
      if wait (g c) then resume (set_g c (set_wait (g c) false)) ok v else c
  | Idle, SettleRet ok v =>
      if rwait (g c) then set_g c (await_return_settled (g c) ok v) else c
  | _, _ => c
  end.

(** [async_generator_start], 278-330. *)
Definition start (w : W) : config :=
  {| g := {| st := Start; q := []; log := []; nid := 0; wd := w; bd := body0 A; md := Idle;
             wait := false; rwait := false |};
     op := None; ip := PStart; rk := TReq KNext; rv := undef A; itr := None |}.

Definition run (c : config) (l : list action) : config := fold_left act l c.

(** ** Generators *)

(** What a method of a generator gives its caller: an iterator result made
    here, the inner iterator's result object, or an exception. *)
Inductive result := Result (v : V) (done : bool) | Inner (o : V) | Thrown (v : V).

Record gen := {
  gst : gstate; glog : list result; gwd : W; gbd : B; gmd : mode;
  gip : point; gk : kind; gv : V; git : option I }.

Definition gset_st c x := {| gst := x; glog := glog c; gwd := gwd c; gbd := gbd c; gmd := gmd c; gip := gip c; gk := gk c; gv := gv c; git := git c |}.
Definition gadd c x := {| gst := gst c; glog := glog c ++ [x]; gwd := gwd c; gbd := gbd c; gmd := Idle; gip := gip c; gk := gk c; gv := gv c; git := git c |}.
Definition gset_wd c x := {| gst := gst c; glog := glog c; gwd := x; gbd := gbd c; gmd := gmd c; gip := gip c; gk := gk c; gv := gv c; git := git c |}.
Definition gset_bd c x := {| gst := gst c; glog := glog c; gwd := gwd c; gbd := x; gmd := gmd c; gip := gip c; gk := gk c; gv := gv c; git := git c |}.
Definition ggo c x := {| gst := gst c; glog := glog c; gwd := gwd c; gbd := gbd c; gmd := x; gip := gip c; gk := gk c; gv := gv c; git := git c |}.
Definition gset_ip c x := {| gst := gst c; glog := glog c; gwd := gwd c; gbd := gbd c; gmd := gmd c; gip := x; gk := gk c; gv := gv c; git := git c |}.
Definition gset_recv c k v := {| gst := gst c; glog := glog c; gwd := gwd c; gbd := gbd c; gmd := gmd c; gip := gip c; gk := k; gv := v; git := git c |}.
Definition gset_it c x := {| gst := gst c; glog := glog c; gwd := gwd c; gbd := gbd c; gmd := gmd c; gip := gip c; gk := gk c; gv := gv c; git := x |}.

Definition gthrow (c : gen) (e : V) : gen := ggo c (Run (IThrow e)).

Definition gor {X : Type} (c : gen) (a : W * (X + V)) (f : gen -> X -> gen) : gen :=
  match a with
  | (w, inl x) => f (gset_wd c w) x
  | (w, inr e) => gthrow (gset_wd c w) e
  end.

(** The part that is the same for all three requests, 1289-1310, 1322-1341 and
    1361-1381: [f] takes the value of a finished iterator. *)
Definition inner_result (c : gen) (ir : V) (f : gen -> V -> gen) : gen :=
  if negb (is_object A ir) then gthrow c (terr A)
  else
    gor c (w_done A ir (gwd c)) (fun c done =>
      if done then gor c (w_value A ir (gwd c)) f
      else gadd (gset_ip (gset_st c Suspended) PStar) (Inner ir)).

(** [rjs_iterator_close] of a normal completion, [rjs_iterator.c]:262-310. *)
Definition close_inner (c : gen) (it : I) (f : gen -> gen) : gen :=
  gor c (w_method A it KRet (gwd c)) (fun c fn =>
    match fn with
    | None => f c
    | Some fn =>
        gor c (w_call A fn it None (gwd c)) (fun c res =>
          if is_object A res then f c else gthrow c (terr A))
    end).

(** [generator_iterator_yield_next], 1274-1388. *)
Definition gstar_next (c : gen) : gen :=
  match git c with
  | None => ggo c Bad
  | Some it =>
      match gk c with
      | KNext =>
          gor c (w_next A it (gv c) (gwd c)) (fun c ir =>
            inner_result c ir (fun c v => ggo c (Run (INext v))))
      | KThrow =>
          gor c (w_method A it KThrow (gwd c)) (fun c fn =>
            match fn with
            | Some fn =>
                gor c (w_call A fn it (Some (gv c)) (gwd c)) (fun c ir =>
                  inner_result c ir (fun c v => ggo c (Run (INext v))))
            | None => close_inner c it (fun c => gthrow c (terr A))
            end)
      | KRet =>
          gor c (w_method A it KRet (gwd c)) (fun c fn =>
            match fn with
            | None => ggo c (Run (IRet (gv c)))
            | Some fn =>
                gor c (w_call A fn it (Some (gv c)) (gwd c)) (fun c ir =>
                  inner_result c ir (fun c v => ggo c (Run (IRet v))))
            end)
      end
  end.

(** [rjs_yield_resume], 1219-1240. *)
Definition gyield_resume (c : gen) : gen :=
  ggo c (Run (match gk c with KNext => INext (gv c) | KThrow => IThrow (gv c) | KRet => IRet (gv c) end)).

Definition gcontinue (c : gen) : gen :=
  match gip c with
  | PStart => ggo c (Run (INext (undef A)))
  | PYield => gyield_resume c
  | PStar => gstar_next c
  | _ => ggo c Bad
  end.

(** [generator_resume] and [generator_resume_abrupt], 990-1061, with
    [generator_validate] 970-987. *)
Definition grequest (c : gen) (k : kind) (v : V) : gen :=
  match gst c with
  | Exec => gadd c (Thrown (terr A))
  | s =>
      let c := match k, s with KNext, _ => c | _, Start => gset_st c Completed | _, _ => c end in
      match gst c with
      | Completed =>
          gadd c (match k with
                  | KNext => Result (undef A) true
                  | KRet => Result v true
                  | KThrow => Thrown v
                  end)
      | Start | Suspended => gcontinue (gset_recv (gset_st c Exec) k v)
      | _ => ggo c Bad
      end
  end.

(** One stretch of the body.  A generator has no await. *)
Definition gstep (c : gen) (i : inp V) : gen :=
  let '(w, b, e) := body A (gbd c) i (gwd c) in
  let c := gset_bd (gset_wd c w) b in
  match e with
  | EYield v => gadd (gset_ip (gset_st c Suspended) PYield) (Result v false)
  | EStar v =>
      gor c (w_iter A v (gwd c)) (fun c it => gstar_next (gset_it (gset_recv c KNext (undef A)) (Some it)))
  | EAwait _ => ggo c Bad
  | EReturn _ v => ggo c (Run (IRet v))
  | EThrow v => gadd (gset_st c Completed) (Thrown v)
  | EDone v => gadd (gset_st c Completed) (Result v true)
  | ECall _ _ =>                                       (* generator_validate *)
      match gst c with Exec => gthrow c (terr A) | _ => ggo c Bad end
  end.

Definition gact (c : gen) (a : option (kind * V)) : gen :=
  match gmd c, a with
  | Run i, None => gstep c i
  | Idle, Some (k, v) => grequest c k v
  | _, _ => c
  end.

Definition gstart (w : W) : gen :=
  {| gst := Start; glog := []; gwd := w; gbd := body0 A; gmd := Idle;
     gip := PStart; gk := KNext; gv := undef A; git := None |}.

Definition grun (c : gen) (l : list (option (kind * V))) : gen := fold_left gact l c.

End Generators.
