(** * Statements: code generation and the interpreter's control flow

    Model of how statements become byte code and how the interpreter runs
    that code: [src/lib/rjs_bc_gen.c] (block 2343-2392, if 2395-2450, do
    while 2452-2515, while 2517-2575, throw 2590-2610, return 2613-2685,
    break and continue 2687-2727, for 3087-3207, for in/of 3209-3391, switch
    3393-3514, try 3516-3661, with 3663-3710, statement list 4152-4163, end of
    eval code 4556-4564), [src/lib/rjs_bc_call.c] (the [bc_*] macros 86-147,
    1091-1215 and the main loop with the unwinder 1219-1371),
    [src/lib/rjs_native_stack.c] (state push and pop 93-330, try state
    1629-1645), [src/lib/rjs_iterator.c] (close 262-310), [src/lib/rjs_error.c]
    (throw 258-290, catch 350-366) and the resolution of jump targets in
    [src/lib/rjs_parser.c] (break stack 1404-1450, 2758, 6291, 6328, 6373,
    6598, 6748, 6832, 6905; label look-up 6987-7017; break 7020-7080; continue
    7095-7135).

    Expressions, declarations, binding patterns, environments' contents and
    iterators are the [world]: arbitrary functions which may change the world
    and may throw.  Left out: generators and async functions, tail calls,
    function prologues, the encoding of commands as bytes, and the mapping of
    virtual registers to slots (all registers stay distinct here). *)

From Coq Require Import List Bool Arith.
Import ListNotations.

(** ** The world *)

(** The answer of an operation: the world after it, the result or the thrown
    value, and — for an operation that succeeds — what it left in the
    runtime's error register [rt->error_flag], [rt->error] when it touched it
    (code that throws and catches inside clears the flag,
    [rjs_error.c]:350-366). *)
Definition ans (W V A : Type) : Type := (W * (A + V) * option (bool * V))%type.

(** The operations statements are made of.  Scopes are numbers chosen by the
    world; the list of scopes is the chain [sc->scb.lex_env], innermost
    first. *)
Record world := {
  W : Type;
  V : Type;
  undef : V;
  vbool : bool -> V;
  truthy : V -> bool;                                (* rjs_to_boolean *)
  truthy_bool : forall b, truthy (vbool b) = b;
  same : V -> V -> bool;                             (* rjs_is_strictly_equal *)
  w_eval : nat -> list nat -> W -> ans W V V;        (* bc_gen_expr's code *)
  w_bind : nat -> V -> list nat -> W -> ans W V unit;(* bc_gen_binding_assi's code *)
  w_scope : nat -> list nat -> W -> W * nat;         (* push_lex_env, binding_table_init *)
  w_copy : nat -> W -> W * nat;                      (* next_lex_env *)
  w_with : nat -> V -> list nat -> W -> ans W V nat; (* push_with *)
  w_open : bool -> V -> W -> ans W V nat;            (* push_iter, push_enum *)
  w_next : nat -> W -> ans W V (option V);           (* rjs_iterator_step, _value *)
  w_close : nat -> W -> ans W V unit                 (* return() of an iterator *)
}.

(** ** Statements *)

(** The syntax tree, [rjs_ast_*].  [Nop] ends a statement list and stands for
    an absent branch; [Semi] is the empty statement; [Do] is a declaration or
    another action without completion value.  A [Try] with [hc = false] has no
    catch clause, with [hf = false] no finally block. *)
Inductive stmt :=
| Nop
| Semi
| Expr (e : nat)
| Do (e : nat)
| Seq (s1 s2 : stmt)
| Block (d : nat) (s : stmt)
| If (e : nat) (s1 s2 : stmt)
| DoWhile (s : stmt) (e : nat)
| While (e : nat) (s : stmt)
| For (d init test step : option nat) (s : stmt)
| ForOf (closing : bool) (d : option nat) (e b : nat) (s : stmt)
| Switch (d : option nat) (e : nat) (cs : cases)
| With (e d : nat) (s : stmt)
| Labelled (x : nat) (s : stmt)
| Break (t : option nat)
| Continue (t : option nat)
| Return (e : option nat)
| Throw (e : nat)
| Try (b : stmt) (hc : bool) (p : option (nat * nat)) (c : stmt) (hf : bool) (f : stmt)
with cases :=
| CNil
| CCons (t : option nat) (s : stmt) (r : cases).

(** ** Byte code *)

(** Commands, [rjs_bc.h].  Jumps name a label; [Stub] marks its place.
    Registers are virtual. *)
Inductive instr :=
| IStub (l : nat)
| IEval (e r : nat)
| IUndef (r : nat)
| IDup (r1 r2 : nat)
| IJump (l : nat)
| IJumpT (r l : nat)
| IJumpF (r l : nat)
| IEq (r1 r2 r3 : nat)
| IScope (d : nat)
| INext
| IWith (r d : nat)
| IIter (closing : bool) (r : nat)
| IStep (rd r : nat)
| IBind (b r : nat)
| IPop
| ITry (lc lf : nat)
| ICatch (r : nat)
| IFinally
| ITryEnd
| IThrow (r : nat)
| IReturn (r : nat).

(** ** Code generation *)

(** An entry of the break or continue stack, [RJS_AstJumpStack]: the labels
    of its statement, whether a plain jump may use it, and the label, stack
    depth and result register the generator gave it. *)
Record jump := { j_names : list nat; j_plain : bool; j_lab : nat; j_dep : nat; j_rv : option nat }.

(** The generator's context: both stacks, [bg->stack_depth] and
    [bg->rv_reg]. *)
Record ctx := { brk : list jump; con : list jump; dep : nat; rv : option nat }.

(** [rjs_parser.c]:6987-7072: the entry a jump goes to.  A named jump goes to
    the statement carrying the label, when that statement is on the stack; a
    plain one to the innermost loop or switch. *)
Definition target (t : option nat) (js : list jump) : option jump :=
  match t with
  | None => find j_plain js
  | Some x => find (fun j => existsb (Nat.eqb x) (j_names j)) js
  end.

(** [rjs_bc_gen.c]:2687-2727: leave the states between here and the
    destination, copy the completion value if the destination keeps it in
    another register, jump. *)
Definition dup_to (src dst : option nat) : list instr :=
  match src, dst with
  | Some a, Some b => if Nat.eqb a b then [] else [IDup a b]
  | _, _ => []
  end.

Definition jump_code (d : nat) (src : option nat) (j : jump) : list instr :=
  repeat IPop (d - j_dep j) ++ dup_to src (j_rv j) ++ [IJump (j_lab j)].

(** [load_undefined] into the completion value register, when there is
    one. *)
Definition clear (r : option nat) : list instr :=
  match r with Some r => [IUndef r] | None => [] end.

(** Context for a sub-statement under [n] more states, reached by [break]
    through [l]. *)
Definition enter (k : ctx) (n : nat) (ls : list nat) (plain : bool) (l : nat) : ctx :=
  {| brk := {| j_names := ls; j_plain := plain; j_lab := l; j_dep := dep k + n; j_rv := rv k |} :: brk k;
     con := con k; dep := dep k + n; rv := rv k |}.

(** The same for a loop: [continue] goes to [lc]; the body runs under [m]
    further states. *)
Definition enter_loop (k : ctx) (n m : nat) (ls : list nat) (lb lc : nat) : ctx :=
  {| brk := {| j_names := ls; j_plain := true; j_lab := lb; j_dep := dep k + n; j_rv := rv k |} :: brk k;
     con := {| j_names := ls; j_plain := true; j_lab := lc; j_dep := dep k + n; j_rv := rv k |} :: con k;
     dep := dep k + n + m; rv := rv k |}.

Definition under (k : ctx) (n : nat) : ctx :=
  {| brk := brk k; con := con k; dep := dep k + n; rv := rv k |}.

Definition with_rv (k : ctx) (r : option nat) : ctx :=
  {| brk := brk k; con := con k; dep := dep k; rv := r |}.

Definition one {A} (o : option A) : nat := match o with Some _ => 1 | None => 0 end.

Definition scope (d : option nat) : list instr :=
  match d with Some d => [IScope d] | None => [] end.
Definition unscope (d : option nat) : list instr :=
  match d with Some _ => [IPop] | None => [] end.
Definition next_scope (d : option nat) : list instr :=
  match d with Some _ => [INext] | None => [] end.

(** [rjs_bc_gen.c]:3440-3474: the tests of a switch, in order.  Case [i] owns
    three numbers: its label and two registers. *)
Fixpoint tests (rid : nat) (cs : cases) (n : nat) : list instr :=
  match cs with
  | CNil => []
  | CCons None _ r => tests rid r (n + 3)
  | CCons (Some e) _ r =>
      [IEval e (n + 1); IEq rid (n + 1) (n + 2); IJumpT (n + 2) n] ++ tests rid r (n + 3)
  end.

(** [default_lid], 3405 and 3466-3472. *)
Fixpoint default_of (cs : cases) (n : nat) : option nat :=
  match cs with
  | CNil => None
  | CCons None _ _ => Some n
  | CCons (Some _) _ r => default_of r (n + 3)
  end.

Fixpoint cases_len (cs : cases) : nat :=
  match cs with CNil => 0 | CCons _ _ r => 3 + cases_len r end.

(** The catch clause, 3556-3603: fetch the error, bind it in a scope of its
    own. *)
Definition catch_head (p : option (nat * nat)) (r : nat) : list instr :=
  ICatch r :: match p with Some (d, b) => [IScope d; IBind b r] | None => [] end.

(** [bc_gen_stmt], [rjs_bc_gen.c]:4022-4150.  [ls] are the labels in front of
    the statement; [n] is the next free number, for labels and registers
    alike.  [None]: the parser has reported that a jump has no target. *)
Fixpoint gen (ls : list nat) (k : ctx) (s : stmt) (n : nat) : option (list instr * nat) :=
  match s with
  | Nop | Semi => Some ([], n)
  | Expr e =>                                                   (* 2328-2341 *)
      match rv k with
      | Some r => Some ([IEval e r], n)
      | None => Some ([IEval e n], n + 1)
      end
  | Do e => Some ([IEval e n], n + 1)
  | Seq s1 s2 =>                                                (* 4154-4163 *)
      match gen [] k s1 n with
      | None => None
      | Some (c1, n1) =>
          match gen [] k s2 n1 with
          | None => None
          | Some (c2, n2) => Some (c1 ++ c2, n2)
          end
      end
  | Block _ Nop => Some ([], n)                                 (* 2352-2353 *)
  | Block d s =>                                                (* 2355-2391 *)
      let le := n in
      match gen [] (enter k 1 ls false le) s (n + 1) with
      | None => None
      | Some (c, n1) => Some (IScope d :: c ++ [IStub le; IPop], n1)
      end
  | If e s1 s2 =>                                               (* 2395-2450 *)
      let rid := n in let l1 := n + 1 in let l2 := n + 2 in
      (* only the first branch is parsed with the statement on the break
         stack, rjs_parser.c:6291-6305 *)
      match gen [] (enter k 0 ls false l2) s1 (n + 3) with
      | None => None
      | Some (c1, n1) =>
          match gen [] k s2 n1 with
          | None => None
          | Some (c2, n2) =>
              Some (clear (rv k) ++ [IEval e rid; IJumpF rid l1] ++ c1 ++ [IJump l2; IStub l1]
                    ++ c2 ++ [IStub l2], n2)
          end
      end
  | DoWhile s e =>                                              (* 2452-2515 *)
      let rid := n in let lb := n + 1 in let le := n + 2 in let lc := n + 3 in
      match gen [] (enter_loop k 0 0 ls le lc) s (n + 4) with
      | None => None
      | Some (c, n1) =>
          Some (clear (rv k) ++ [IStub lb] ++ c ++ [IStub lc; IEval e rid; IJumpT rid lb; IStub le], n1)
      end
  | While e s =>                                                (* 2517-2575 *)
      let rid := n in let l1 := n + 1 in let l2 := n + 2 in
      match gen [] (enter_loop k 0 0 ls l2 l1) s (n + 3) with
      | None => None
      | Some (c, n1) =>
          Some (clear (rv k) ++ [IStub l1; IEval e rid; IJumpF rid l2] ++ c ++ [IJump l1; IStub l2], n1)
      end
  | For d init test step s =>                                   (* 3087-3207 *)
      let l1 := n in let lc := n + 1 in let lb := n + 2 in
      let ri := n + 3 in let rt := n + 4 in let rs := n + 5 in
      match gen [] (enter_loop k (one d) 0 ls lb lc) s (n + 6) with
      | None => None
      | Some (c, n1) =>
          Some (scope d
                ++ match init with Some e => [IEval e ri] | None => [] end
                ++ clear (rv k) ++ next_scope d
                ++ [IStub l1]
                ++ match test with Some e => [IEval e rt; IJumpF rt lb] | None => [] end
                ++ c
                ++ [IStub lc] ++ next_scope d
                ++ match step with Some e => [IEval e rs] | None => [] end
                ++ [IJump l1; IStub lb] ++ unscope d, n1)
      end
  | ForOf closing d e b s =>                                    (* 3209-3391 *)
      let rid := n in let lc := n + 1 in let lb := n + 2 in let dr := n + 3 in let vr := n + 4 in
      match gen [] (enter_loop k 1 (one d) ls lb lc) s (n + 5) with
      | None => None
      | Some (c, n1) =>
          Some (scope d ++ [IEval e rid] ++ unscope d ++ [IIter closing rid]
                ++ clear (rv k)
                ++ [IStub lc; IStep dr vr; IJumpF dr lb] ++ scope d ++ [IBind b vr]
                ++ c ++ unscope d ++ [IJump lc; IStub lb; IPop], n1)
      end
  | Switch d e cs =>                                            (* 3393-3514 *)
      let rid := n in let le := n + 1 in
      match gen_cases (enter k (one d) ls true le) cs (n + 2) (n + 2 + cases_len cs) with
      | None => None
      | Some (c, n1) =>
          Some ([IEval e rid] ++ clear (rv k) ++ scope d
                ++ tests rid cs (n + 2)
                ++ [IJump (match default_of cs (n + 2) with Some l => l | None => le end)]
                ++ c ++ [IStub le] ++ unscope d, n1)
      end
  | With e d s =>                                               (* 3663-3710 *)
      let rid := n in let le := n + 1 in
      match gen [] (enter k 1 ls false le) s (n + 2) with
      | None => None
      | Some (c, n1) =>
          Some ([IEval e rid] ++ clear (rv k) ++ [IWith rid d] ++ c ++ [IStub le; IPop], n1)
      end
  | Labelled x s => gen (x :: ls) k s n                         (* 4099-4105 *)
  | Break t =>                                                  (* 2687-2727 *)
      if match t with Some x => existsb (Nat.eqb x) ls | None => false end
      then Some ([], n)                                         (* 2697-2698 *)
      else match target t (brk k) with
           | None => None
           | Some j => Some (jump_code (dep k) (rv k) j, n)
           end
  | Continue t =>
      match target t (con k) with
      | None => None
      | Some j => Some (jump_code (dep k) (rv k) j, n)
      end
  | Return e =>                                                 (* 2613-2685 *)
      match e with
      | Some e => Some ([IEval e n; IReturn n], n + 1)
      | None => Some ([IUndef n; IReturn n], n + 1)
      end
  | Throw e => Some ([IEval e n; IThrow n], n + 1)              (* 2590-2610 *)
  | Try b hc p c hf f =>                                        (* 3516-3661 *)
      let lc := n in let lf := n + 1 in let le := n + 2 in let lb := n + 3 in
      let rid := n + 4 in let fr := n + 5 in
      (* only the try block is parsed with the statement on the break stack,
         rjs_parser.c:6905-6907 *)
      match gen [] (enter k 1 ls false lb) b (n + 6) with
      | None => None
      | Some (cb, n1) =>
          match (if hc then gen [] (under k (1 + one p)) c n1 else Some ([], n1)) with
          | None => None
          | Some (cc, n2) =>
              let frv := match rv k with Some _ => Some fr | None => None end in
              match (if hf then gen [] (with_rv (under k 1) frv) f n2 else Some ([], n2)) with
              | None => None
              | Some (cf, n3) =>
                  Some (clear (rv k) ++ [ITry lc lf] ++ cb ++ [IJump lf; IStub lc]
                        ++ (if hc then catch_head p rid ++ cc ++ unscope (option_map fst p) else [])
                        ++ [IStub lf; IStub lb]
                        ++ (if hf then IFinally :: clear frv ++ cf else [])
                        ++ [ITryEnd; IStub le; IPop], n3)
              end
          end
      end
  end
(** 3486-3500: the bodies, each behind its label. *)
with gen_cases (k : ctx) (cs : cases) (l n : nat) : option (list instr * nat) :=
  match cs with
  | CNil => Some ([], n)
  | CCons _ s r =>
      match gen [] k s n with
      | None => None
      | Some (c, n1) =>
          match gen_cases k r (l + 3) n1 with
          | None => None
          | Some (c', n2) => Some (IStub l :: c ++ c', n2)
          end
      end
  end.

(** Code of a function body (the prologue is left out) and of an eval script,
    4465-4470 and 4556-4564. *)
Definition function_code (s : stmt) : option (list instr) :=
  option_map fst (gen [] {| brk := []; con := []; dep := 0; rv := None |} s 0).

Definition eval_code (s : stmt) : option (list instr) :=
  option_map (fun c => IUndef 0 :: fst c ++ [IReturn 0])
    (gen [] {| brk := []; con := []; dep := 0; rv := Some 0 |} s 1).

(** ** The interpreter *)

Section Machine.

Variable A : world.

Local Notation W := (W A).
Local Notation V := (V A).

(** [RJS_TRY_STATE_*] and [RJS_TRY_NEXT_OP_*]. *)
Inductive phase := PTry | PCatch | PFinally | PEnd.
Inductive nextop := ONormal | OThrow | OReturn.

(** Entries of the state stack, [RJS_State]. *)
Inductive state :=
| SScope
| SIter (closing : bool) (it : nat) (done : bool)
| STry (ph : phase) (op : nextop) (next : option nat) (cip fip : nat) (err : V).

(** [r] at the labels [ret] and [error] of [rjs_bc_call]. *)
Inductive exit := XErr | XRet | XOk.

Inductive mode :=
| At (pc : nat)
| Un (r : exit)
| Done (v : V)
| Failed
| Bad.

Record config := {
  md : mode;
  stk : list state;
  regs : nat -> V;
  env : list nat;
  retv : V;               (* sc->retv *)
  er : bool * V;          (* rt->error_flag, rt->error *)
  wd : W }.

Definition upd (g : nat -> V) (r : nat) (v : V) : nat -> V :=
  fun x => if Nat.eqb x r then v else g x.

(** Place of a label, filled in by [bc_label_store]. *)
Fixpoint find_label (l : nat) (code : list instr) : option nat :=
  match code with
  | [] => None
  | IStub l' :: r => if Nat.eqb l l' then Some 0 else option_map S (find_label l r)
  | _ :: r => option_map S (find_label l r)
  end.

Definition goto (c : config) (m : mode) : config :=
  {| md := m; stk := stk c; regs := regs c; env := env c; retv := retv c; er := er c; wd := wd c |}.
Definition set_stk (c : config) (s : list state) : config :=
  {| md := md c; stk := s; regs := regs c; env := env c; retv := retv c; er := er c; wd := wd c |}.
Definition set_env (c : config) (e : list nat) : config :=
  {| md := md c; stk := stk c; regs := regs c; env := e; retv := retv c; er := er c; wd := wd c |}.
Definition set_reg (c : config) (r : nat) (v : V) : config :=
  {| md := md c; stk := stk c; regs := upd (regs c) r v; env := env c; retv := retv c; er := er c; wd := wd c |}.
Definition set_retv (c : config) (v : V) : config :=
  {| md := md c; stk := stk c; regs := regs c; env := env c; retv := v; er := er c; wd := wd c |}.
Definition set_er (c : config) (e : bool * V) : config :=
  {| md := md c; stk := stk c; regs := regs c; env := env c; retv := retv c; er := e; wd := wd c |}.
Definition set_wd (c : config) (w : W) : config :=
  {| md := md c; stk := stk c; regs := regs c; env := env c; retv := retv c; er := er c; wd := w |}.

Definition jump_to (code : list instr) (c : config) (l : nat) : config :=
  match find_label l code with Some p => goto c (At p) | None => goto c Bad end.

(** [goto error] after a call returned [RJS_ERR]: the callee has put its error
    in the register, [rjs_error.c]:258-290. *)
Definition raise (c : config) (e : V) : config := goto (set_er c (true, e)) (Un XErr).

(** Run an operation of the world and continue with its result. *)
Definition after {B : Type} (c : config) (a : ans W V B) (f : config -> B -> config) : config :=
  match a with
  | (w, inr e, _) => raise (set_wd c w) e
  | (w, inl b, None) => f (set_wd c w) b
  | (w, inl b, Some x) => f (set_er (set_wd c w) x) b
  end.

(** [rjs_iterator_close], [rjs_iterator.c]:262-310: the error register is
    saved when the flag is set, and the error — not the flag — is put back
    afterwards.  The result says whether closing failed. *)
Definition close (c : config) (it : nat) : config * bool :=
  match w_close A it (wd c) with
  | (w, r, x) =>
      let e := match r with
               | inr e => (true, e)
               | inl _ => match x with Some x => x | None => er c end
               end in
      let e := if fst (er c) then (fst e, snd (er c)) else e in
      (set_er (set_wd c w) e, match r with inr _ => true | inl _ => false end)
  end.

(** [rjs_state_pop] with [rjs_state_deinit], [rjs_native_stack.c]:93-175, for
    the top state [s]. *)
Definition deinit (c : config) (s : state) : config * bool :=
  match s with
  | SScope => (set_env c (tl (env c)), false)
  | SIter true it false => close c it
  | SIter _ _ _ => (c, false)
  | STry _ _ _ _ _ _ => (c, false)
  end.

(** [bc_pop_state], [rjs_bc_call.c]:1091-1140. *)
Definition pop_state (c : config) (pc : nat) : config :=
  match stk c with
  | [] => goto c Bad
  | STry ph op next cip fip err :: r =>
      match ph with
      | PTry | PCatch =>
          goto (set_stk c (STry ph op (Some (pc + 1)) cip fip err :: r)) (At fip)
      | PFinally =>
          match op with
          | OReturn => goto (set_stk c r) (Un XRet)
          | _ => goto (set_stk c r) (At (pc + 1))
          end
      | PEnd =>
          match op with
          | ONormal =>
              goto (set_stk c r) (At (match next with Some ip => ip | None => pc + 1 end))
          | OThrow => goto (set_er (set_stk c r) (true, err)) (Un XErr)
          | OReturn => goto (set_stk c r) (Un XRet)
          end
      end
  | s :: r =>
      let (c1, failed) := deinit (set_stk c r) s in
      if failed then goto c1 (Un XErr) else goto c1 (At (pc + 1))
  end.

(** One round of the unwinder, [rjs_bc_call.c]:1322-1371. *)
Definition unwind (c : config) (r : exit) : config :=
  match stk c with
  | [] => match r with XErr => goto c Failed | _ => goto c (Done (retv c)) end
  | STry ph op next cip fip err :: t =>
      let op' := match r with XErr => OThrow | XRet => OReturn | XOk => op end in
      let err' := match r with XErr => snd (er c) | _ => err end in
      match ph with
      | PTry =>
          goto (set_stk c (STry ph op' next cip fip err' :: t))
               (At (match r with XErr => cip | _ => fip end))
      | PCatch => goto (set_stk c (STry ph op' next cip fip err' :: t)) (At fip)
      | PFinally => set_stk c t
      | PEnd => goto c Bad
      end
  | s :: t =>
      let (c1, failed) := deinit (set_stk c t) s in
      if failed then goto c1 (Un XErr) else c1
  end.

(** [rjs_catch], [rjs_error.c]:350-366, as used by [bc_catch_error]. *)
Definition catch (c : config) (r : nat) : config :=
  if fst (er c) then set_er (set_reg c r (snd (er c))) (false, undef A)
  else set_reg c r (undef A).

(** One command of [rjs_bc_call]'s main loop. *)
Definition exec_instr (code : list instr) (c : config) (pc : nat) (i : instr) : config :=
  let go c := goto c (At (pc + 1)) in
  match i with
  | IStub _ => go c
  | IEval e r => after c (w_eval A e (env c) (wd c)) (fun c v => go (set_reg c r v))
  | IUndef r => go (set_reg c r (undef A))
  | IDup a b => go (set_reg c b (regs c a))
  | IJump l => jump_to code c l
  | IJumpT r l => if truthy A (regs c r) then jump_to code c l else go c
  | IJumpF r l => if truthy A (regs c r) then go c else jump_to code c l
  | IEq a b r => go (set_reg c r (vbool A (same A (regs c a) (regs c b))))
  | IScope d =>
      let (w, x) := w_scope A d (env c) (wd c) in
      go (set_env (set_wd (set_stk c (SScope :: stk c)) w) (x :: env c))
  | INext =>
      match env c with
      | x :: t => let (w, y) := w_copy A x (wd c) in go (set_env (set_wd c w) (y :: t))
      | [] => goto c Bad
      end
  | IWith r d =>
      after c (w_with A d (regs c r) (env c) (wd c))
        (fun c x => go (set_env (set_stk c (SScope :: stk c)) (x :: env c)))
  | IIter closing r =>
      after c (w_open A closing (regs c r) (wd c))
        (fun c it => go (set_stk c (SIter closing it false :: stk c)))
  | IStep rd r =>
      match stk c with
      | SIter closing it done :: t =>
          if done then go (set_reg (set_reg c r (undef A)) rd (vbool A false))
          else
            match w_next A it (wd c) with
            | (w, inr e, _) => raise (set_stk (set_wd c w) (SIter closing it true :: t)) e
            | (w, inl o, x) =>
                let c := match x with Some x => set_er (set_wd c w) x | None => set_wd c w end in
                match o with
                | Some v => go (set_reg (set_reg c r v) rd (vbool A true))
                | None =>
                    go (set_reg (set_reg (set_stk c (SIter closing it true :: t)) r (undef A))
                          rd (vbool A false))
                end
            end
      | _ => goto c Bad
      end
  | IBind b r => after c (w_bind A b (regs c r) (env c) (wd c)) (fun c _ => go c)
  | IPop => pop_state c pc
  | ITry lc lf =>
      match find_label lc code, find_label lf code with
      | Some cip, Some fip => go (set_stk c (STry PTry ONormal None cip fip (undef A) :: stk c))
      | _, _ => goto c Bad
      end
  | ICatch r =>
      match stk c with
      | STry _ _ next cip fip err :: t =>
          go (catch (set_stk c (STry PCatch ONormal next cip fip err :: t)) r)
      | _ => goto c Bad
      end
  | IFinally =>
      match stk c with
      | STry _ op next cip fip err :: t => go (set_stk c (STry PFinally op next cip fip err :: t))
      | _ => goto c Bad
      end
  | ITryEnd =>
      match stk c with
      | STry _ op next cip fip err :: t => go (set_stk c (STry PEnd op next cip fip err :: t))
      | _ => goto c Bad
      end
  | IThrow r => raise c (regs c r)
  | IReturn r => goto (set_retv c (regs c r)) (Un XRet)
  end.

Definition step (code : list instr) (c : config) : config :=
  match md c with
  | At pc =>
      match nth_error code pc with
      | Some i => exec_instr code c pc i
      | None => goto c (Un XOk)
      end
  | Un r => unwind c r
  | _ => c
  end.

Fixpoint run (n : nat) (code : list instr) (c : config) : config :=
  match n with
  | O => c
  | S n => run n code (step code c)
  end.

Definition start (e : list nat) (w : W) : config :=
  {| md := At 0; stk := []; regs := fun _ => undef A; env := e; retv := undef A;
     er := (false, undef A); wd := w |}.

(** How a run ended, [rjs_bc_call.c]:1365-1371: the world and the value
    returned or thrown. *)
Definition outcome (c : config) : option (W * (V + V)) :=
  match md c with
  | Done v => Some (wd c, inl v)
  | Failed => Some (wd c, inr (snd (er c)))
  | _ => None
  end.

End Machine.
