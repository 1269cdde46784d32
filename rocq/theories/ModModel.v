(** Model of linking and evaluating modules: src/lib/rjs_module_opt.c
    (inner_module_link, rjs_module_link, gather_available_ancestors,
    execute_valid_modules, async_module_execution_fulfilled/rejected,
    execute_async_module, inner_module_evaluation, rjs_module_evaluate).

    A module is a number.  The parts of a module that do not change after it
    was loaded are the [graph]: its requested modules in order
    (module_requests[i].module, all resolved), whether its body is an async
    function (top level await), the outcome of module_init_env and the outcome
    of the body of a module without top level await.  The error values are
    numbers; 0 is the value undefined.  The completion of a body with top level
    await is an event of its own ([done]): the reactions of the promise of
    mod->capability run as a job (C19), never inside the functions below.
    The DFS stack is one list, since none of the functions is re-entered while
    a DFS is running.  A failed assert is [Abort].  [log] is a ghost list of
    what was done, the latest first.
    Not modelled: the int overflow of the indices and of async_eval_cnt,
    allocation failure, the garbage collector. *)

From Coq Require Import ZArith List Bool Arith.
Import ListNotations.

(** RJS_ModuleStatus, src/lib/include/rjs_module.h:69-80 *)
Inductive status :=
| Allocated | Loaded | LoadFailed | LoadRequested
| Unlinked | Linking | Linked | Evaluating | EvalAsync | Evaluated.

Definition status_eqb (a b : status) : bool :=
  match a, b with
  | Allocated, Allocated | Loaded, Loaded | LoadFailed, LoadFailed
  | LoadRequested, LoadRequested | Unlinked, Unlinked | Linking, Linking
  | Linked, Linked | Evaluating, Evaluating | EvalAsync, EvalAsync
  | Evaluated, Evaluated => true
  | _, _ => false
  end.

(** The promise of top_level_capability. *)
Inductive promise := Waiting | Resolved | Rejected (e : nat).

(** RJS_Module, src/lib/include/rjs_module.h:88-115.  [err] is eval_result and
    eval_error together; [aeval] 0 is "not async"; [live] says that the promise
    of mod->capability was created and is not settled. *)
Record modrec := Mod {
  stat : status; dfs : nat; anc : nat;
  aeval : nat; pend : Z; root : option nat; err : option nat;
  parents : list nat; top : option promise; live : bool }.

Record graph := Graph {
  reqs : nat -> list nat; tla : nat -> bool;
  init : nat -> option nat; body : nat -> option nat }.

(** What is observed: module_init_env was run, the body was started, the body
    ended, the body ended with an error. *)
Inductive event := Init (m : nat) | Start (m : nat) | Finish (m : nat) | Fail (m : nat) (e : nat).

Record st := St { mods : nat -> modrec; stk : list nat; cnt : nat; log : list event }.

Inductive res (A : Type) := Ok (a : A) | Thrown (e : nat) | Abort | NoFuel.
Arguments Ok {A}. Arguments Thrown {A}. Arguments Abort {A}. Arguments NoFuel {A}.

Definition M (A : Type) := st -> res A * st.
Definition ret {A} (a : A) : M A := fun s => (Ok a, s).
Definition thrown {A} (e : nat) : M A := fun s => (Thrown e, s).
Definition abort {A} : M A := fun s => (Abort, s).
Definition nofuel {A} : M A := fun s => (NoFuel, s).
Definition bind {A B} (c : M A) (k : A -> M B) : M B :=
  fun s => match c s with
           | (Ok a, s') => k a s'
           | (Thrown e, s') => (Thrown e, s')
           | (Abort, s') => (Abort, s')
           | (NoFuel, s') => (NoFuel, s')
           end.
Notation "x <- c ;; k" := (bind c (fun x => k)) (at level 61, c at next level, right associativity).
Notation "c ;;; k" := (bind c (fun _ => k)) (at level 61, right associativity).

Definition assert (b : bool) : M unit := if b then ret tt else abort.

(** Reading and writing the fields of a module. *)
Definition read {A} (f : modrec -> A) (m : nat) : M A := fun s => (Ok (f (mods s m)), s).
Definition write (m : nat) (f : modrec -> modrec) : M unit :=
  fun s => (Ok tt, St (fun x => if Nat.eqb x m then f (mods s m) else mods s x) (stk s) (cnt s) (log s)).
Definition stack : M (list nat) := fun s => (Ok (stk s), s).
Definition set_stack (l : list nat) : M unit := fun s => (Ok tt, St (mods s) l (cnt s) (log s)).
Definition say (e : event) : M unit := fun s => (Ok tt, St (mods s) (stk s) (cnt s) (e :: log s)).
(** rt->async_eval_cnt ++ *)
Definition next_cnt : M nat := fun s => (Ok (cnt s), St (mods s) (stk s) (S (cnt s)) (log s)).

Definition set_stat (v : status) (r : modrec) : modrec :=
  Mod v (dfs r) (anc r) (aeval r) (pend r) (root r) (err r) (parents r) (top r) (live r).
Definition set_dfs (i : nat) (r : modrec) : modrec :=
  Mod (stat r) i i (aeval r) (pend r) (root r) (err r) (parents r) (top r) (live r).
Definition set_anc (i : nat) (r : modrec) : modrec :=
  Mod (stat r) (dfs r) i (aeval r) (pend r) (root r) (err r) (parents r) (top r) (live r).
Definition set_aeval (i : nat) (r : modrec) : modrec :=
  Mod (stat r) (dfs r) (anc r) i (pend r) (root r) (err r) (parents r) (top r) (live r).
Definition add_pend (d : Z) (r : modrec) : modrec :=
  Mod (stat r) (dfs r) (anc r) (aeval r) (pend r + d)%Z (root r) (err r) (parents r) (top r) (live r).
Definition set_root (v : nat) (r : modrec) : modrec :=
  Mod (stat r) (dfs r) (anc r) (aeval r) (pend r) (Some v) (err r) (parents r) (top r) (live r).
Definition set_err (e : nat) (r : modrec) : modrec :=
  Mod (stat r) (dfs r) (anc r) (aeval r) (pend r) (root r) (Some e) (parents r) (top r) (live r).
Definition add_parent (p : nat) (r : modrec) : modrec :=
  Mod (stat r) (dfs r) (anc r) (aeval r) (pend r) (root r) (err r) (parents r ++ [p]) (top r) (live r).
Definition set_top (v : promise) (r : modrec) : modrec :=
  Mod (stat r) (dfs r) (anc r) (aeval r) (pend r) (root r) (err r) (parents r) (Some v) (live r).
Definition set_live (b : bool) (r : modrec) : modrec :=
  Mod (stat r) (dfs r) (anc r) (aeval r) (pend r) (root r) (err r) (parents r) (top r) b.

(** A call of the resolve or reject function of top_level_capability, when the
    capability exists: only the first call has an effect (C18). *)
Definition settle (v : promise) (r : modrec) : modrec :=
  match top r with Some Waiting => set_top v r | _ => r end.

Definition is_some {A} (o : option A) : bool := match o with Some _ => true | None => false end.
Definition is_root (m : nat) (o : option nat) : bool :=
  match o with Some r => Nat.eqb r m | None => false end.

(** [foreach] of a list. *)
Fixpoint iter (f : nat -> M unit) (l : list nat) : M unit :=
  match l with
  | [] => ret tt
  | x :: l' => f x ;;; iter f l'
  end.

Section Graph.
Variable G : graph.

(** The loop over module_requests: [call] is the recursive call, [post] what is
    done with the requested module afterwards; the index is threaded. *)
Fixpoint requests (call : nat -> nat -> M nat) (post : nat -> M unit) (l : list nat) (i : nat) : M nat :=
  match l with
  | [] => ret i
  | r :: l' => i' <- call r i ;; post r ;;; requests call post l' i'
  end.

(** The loops that take modules off the stack up to [m],
    rjs_module_opt.c:779-785 and 1292-1307. *)
Fixpoint unstack (one : nat -> M unit) (m : nat) (l : list nat) : M unit :=
  match l with
  | [] => ret tt
  | t :: l' =>
      set_stack l' ;;; one t ;;;
      if Nat.eqb t m then ret tt else unstack one m l'
  end.

(** Status of the requested module after linking it, 767-769. *)
Definition link_req (m r : nat) : M unit :=
  v <- read stat r ;;
  if status_eqb v Linking then
    a <- read anc r ;; b <- read anc m ;; write m (set_anc (Nat.min a b))
  else ret tt.

(** module_init_env, 307-430: only its outcome. *)
Definition init_env (m : nat) : M unit :=
  say (Init m) ;;; match init G m with Some e => thrown e | None => ret tt end.

(** inner_module_link, 732-789 *)
Fixpoint inner_link (f : nat) (m i : nat) : M nat :=
  v <- read stat m ;;
  match v with
  | Linking | Linked | EvalAsync | Evaluated => ret i
  | Unlinked =>
      match f with
      | O => nofuel
      | S f' =>
          write m (set_stat Linking) ;;;
          write m (set_dfs i) ;;;
          l <- stack ;; set_stack (m :: l) ;;;
          i' <- requests (inner_link f') (link_req m) (reqs G m) (S i) ;;
          init_env m ;;;
          d <- read dfs m ;; a <- read anc m ;;
          (if Nat.eqb d a then
             l <- stack ;; unstack (fun t => write t (set_stat Linked)) m l
           else ret tt) ;;;
          ret i'
      end
  | _ => abort
  end.

(** The error path of rjs_module_link, 813-822. *)
Definition link_undo (t : nat) : M unit :=
  v <- read stat t ;; assert (status_eqb v Linking) ;;; write t (set_stat Unlinked).

(** rjs_module_link, 797-831 *)
Definition link (f : nat) (m : nat) : M unit :=
  v <- read stat m ;;
  assert (negb (status_eqb v Linking) && negb (status_eqb v Evaluating)) ;;;
  set_stack [] ;;;
  fun s =>
    match inner_link f m 0 s with
    | (Thrown e, s') =>
        (l <- stack ;; iter link_undo l ;;;
         v <- read stat m ;; assert (status_eqb v Unlinked) ;;; thrown e) s'
    | (Ok _, s') =>
        (v <- read stat m ;;
         assert (status_eqb v Linked || status_eqb v EvalAsync || status_eqb v Evaluated) ;;;
         l <- stack ;; assert (match l with [] => true | _ => false end)) s'
    | (Abort, s') => (Abort, s')
    | (NoFuel, s') => (NoFuel, s')
    end.

(** execute_module of a body without top level await, 852-905. *)
Definition execute (m : nat) : M unit :=
  say (Start m) ;;;
  match body G m with
  | Some e => say (Fail m e) ;;; thrown e
  | None => say (Finish m)
  end.

(** execute_async_module, 1166-1193: the body runs up to its first await. *)
Definition execute_async (m : nat) : M unit :=
  write m (set_live true) ;;; say (Start m).

(** async_module_sort and rjs_sort, 936-947, 1029: by async_eval. *)
Fixpoint insert (s : st) (x : nat) (l : list nat) : list nat :=
  match l with
  | [] => [x]
  | y :: l' => if Nat.leb (aeval (mods s x)) (aeval (mods s y)) then x :: l else y :: insert s x l'
  end.
Definition sort (l : list nat) : M (list nat) :=
  fun s => (Ok (fold_right (insert s) [] l), s).

(** One parent of the list in gather_available_ancestors, 958-998.
    [vh] is the vector and the hash table. *)
Definition gather_one (again : nat -> list nat * list nat -> M (list nat * list nat))
           (p : nat) (vh : list nat * list nat) : M (list nat * list nat) :=
  v <- read stat p ;;
  if status_eqb v Evaluated then ret vh else
  o <- read root p ;;
  bad <- (match o with Some r => e <- read err r ;; ret (is_some e) | None => ret false end) ;;
  if (bad : bool) then ret vh else
  let '(vec, hash) := vh in
  if existsb (Nat.eqb p) hash then ret vh else
  assert (status_eqb v EvalAsync) ;;;
  e <- read err p ;; assert (negb (is_some e)) ;;;
  a <- read aeval p ;; assert (negb (Nat.eqb a 0)) ;;;
  n <- read pend p ;; assert (0 <? n)%Z ;;;
  write p (add_pend (-1)) ;;;
  n <- read pend p ;;
  if (n =? 0)%Z then
    (if tla G p then ret (vec ++ [p], p :: hash) else again p (vec ++ [p], p :: hash))
  else ret (vec, p :: hash).

Fixpoint gather_list (again : nat -> list nat * list nat -> M (list nat * list nat))
         (l : list nat) (vh : list nat * list nat) : M (list nat * list nat) :=
  match l with
  | [] => ret vh
  | p :: l' => vh' <- gather_one again p vh ;; gather_list again l' vh'
  end.

(** gather_available_ancestors, 952-999 *)
Fixpoint gather (f : nat) (m : nat) (vh : list nat * list nat) : M (list nat * list nat) :=
  match f with
  | O => nofuel
  | S f' => l <- read parents m ;; gather_list (gather f') l vh
  end.

(** async_module_execution_rejected, 1113-1144 *)
Fixpoint rejected (f : nat) (e : nat) (m : nat) : M unit :=
  v <- read stat m ;;
  if status_eqb v Evaluated then
    r <- read err m ;; assert (is_some r)
  else
    match f with
    | O => nofuel
    | S f' =>
        assert (status_eqb v EvalAsync) ;;;
        write m (set_stat Evaluated) ;;;
        write m (set_err e) ;;;
        l <- read parents m ;; iter (rejected f' e) l ;;;
        t <- read top m ;;
        if is_some t then
          o <- read root m ;; assert (is_root m o) ;;; write m (settle (Rejected e))
        else ret tt
    end.

(** The loop over the sorted vector, 1032-1059; returns mod_list. *)
Fixpoint execute_each (f : nat) (vec : list nat) (done : list nat) : M (list nat) :=
  match vec with
  | [] => ret done
  | p :: vec' =>
      v <- read stat p ;;
      if status_eqb v Evaluated then
        e <- read err p ;;
        assert (match e with Some (S _) => true | _ => false end) ;;;
        execute_each f vec' done
      else if tla G p then execute_async p ;;; execute_each f vec' done
      else
        fun s =>
          match execute p s with
          | (Thrown e, s') => (rejected f e p ;;; execute_each f vec' done) s'
          | (Ok _, s') =>
              (write p (set_stat Evaluated) ;;;
               t <- read top p ;;
               (if is_some t then
                  o <- read root p ;; assert (is_root p o) ;;; write p (settle Resolved)
                else ret tt) ;;;
               execute_each f vec' (done ++ [p])) s'
          | (Abort, s') => (Abort, s')
          | (NoFuel, s') => (NoFuel, s')
          end
  end.

(** execute_valid_modules, 1002-1068 *)
Fixpoint execute_valid (f : nat) (m : nat) : M unit :=
  match f with
  | O => nofuel
  | S f' =>
      vh <- gather f m ([], []) ;;
      vec <- sort (fst vh) ;;
      done <- execute_each f vec [] ;;
      iter (execute_valid f') done
  end.

(** async_module_execution_fulfilled, 1071-1094 *)
Definition fulfilled (f : nat) (m : nat) : M unit :=
  v <- read stat m ;;
  if status_eqb v Evaluated then
    e <- read err m ;; assert (is_some e)
  else
    write m (set_aeval 0) ;;;
    write m (set_stat Evaluated) ;;;
    t <- read top m ;;
    (if is_some t then write m (settle Resolved) else ret tt) ;;;
    execute_valid f m.

(** The requested module in the loop of inner_module_evaluation, 1238-1272. *)
Definition eval_req (m r : nat) : M unit :=
  v <- read stat r ;;
  assert (status_eqb v Evaluating || status_eqb v EvalAsync || status_eqb v Evaluated) ;;;
  r' <- (if status_eqb v Evaluating then
           a <- read anc m ;; b <- read anc r ;; write m (set_anc (Nat.min a b)) ;;; ret r
         else
           o <- read root r ;;
           match o with
           | None => abort
           | Some r' =>
               v' <- read stat r' ;;
               assert (status_eqb v' EvalAsync || status_eqb v' Evaluated) ;;;
               e <- read err r' ;;
               match e with Some e => thrown e | None => ret r' end
           end) ;;
  a <- read aeval r' ;;
  if Nat.eqb a 0 then ret tt
  else write r' (add_parent m) ;;; write m (add_pend 1).

(** Running the body, 1275-1288. *)
Definition eval_body (m : nat) : M unit :=
  n <- read pend m ;;
  if negb (n =? 0)%Z || tla G m then
    a <- read aeval m ;; assert (Nat.eqb a 0) ;;;
    c <- next_cnt ;; write m (set_aeval c) ;;;
    if (n =? 0)%Z then execute_async m else ret tt
  else execute m.

(** A module of a finished cycle with root [m], 1295-1303. *)
Definition eval_pop (m t : nat) : M unit :=
  write t (set_root m) ;;;
  a <- read aeval t ;;
  write t (set_stat (if Nat.eqb a 0 then Evaluated else EvalAsync)).

(** inner_module_evaluation, 1197-1310 *)
Fixpoint inner_eval (f : nat) (m i : nat) : M nat :=
  v <- read stat m ;;
  match v with
  | EvalAsync | Evaluated =>
      e <- read err m ;;
      match e with None => ret i | Some e => thrown e end
  | Evaluating => ret i
  | Linked =>
      match f with
      | O => nofuel
      | S f' =>
          write m (set_stat Evaluating) ;;;
          write m (set_dfs i) ;;;
          l <- stack ;; set_stack (m :: l) ;;;
          i' <- requests (inner_eval f') (eval_req m) (reqs G m) (S i) ;;
          eval_body m ;;;
          d <- read dfs m ;; a <- read anc m ;;
          (if Nat.eqb d a then
             l <- stack ;; unstack (eval_pop m) m l
           else ret tt) ;;;
          ret i'
      end
  | _ => abort
  end.

(** The error path of rjs_module_evaluate, 1355-1370. *)
Definition eval_undo (e : nat) (t : nat) : M unit :=
  v <- read stat t ;; assert (status_eqb v Evaluating) ;;;
  write t (set_stat Evaluated) ;;; write t (set_err e) ;;; write t (set_root t).

(** rjs_module_evaluate, 1322-1394; returns the module whose top level promise
    is the result. *)
Definition evaluate (f : nat) (m0 : nat) : M nat :=
  v <- read stat m0 ;;
  assert (status_eqb v Linked || status_eqb v EvalAsync || status_eqb v Evaluated) ;;;
  o <- (if status_eqb v Linked then ret (Some m0) else read root m0) ;;
  match o with
  | None => abort
  | Some m =>
      t <- read top m ;;
      (if is_some t then ret tt else
       set_stack [] ;;;
       write m (set_top Waiting) ;;;
       fun s =>
         match inner_eval f m 0 s with
         | (Thrown e, s') =>
             (l <- stack ;; iter (eval_undo e) l ;;; write m (settle (Rejected e))) s'
         | (Ok _, s') =>
             (a <- read aeval m ;;
              (if Nat.eqb a 0 then
                 write m (set_stat Evaluated) ;;; write m (settle Resolved)
               else ret tt) ;;;
              l <- stack ;; assert (match l with [] => true | _ => false end)) s'
         | (Abort, s') => (Abort, s')
         | (NoFuel, s') => (NoFuel, s')
         end) ;;;
      ret m
  end.

(** The body of [m] with top level await ended: the reaction job registered by
    execute_async_module runs (1098-1111, 1147-1163); without a running
    body there is no such event. *)
Definition done (f : nat) (m : nat) (r : option nat) : M unit :=
  b <- read live m ;;
  if negb b then ret tt else
  write m (set_live false) ;;;
  match r with
  | None => say (Finish m) ;;; fulfilled f m
  | Some e => say (Fail m e) ;;; rejected f e m
  end.

(** What a program can do: load and link a module (import statement of the main
    module, import()), evaluate a linked one, and let an async body end. *)
Inductive op := OLink (m : nat) | OEval (m : nat) | ODone (m : nat) (r : option nat).

Definition perform (f : nat) (o : op) : M unit :=
  match o with
  | OLink m => link f m
  | OEval m => evaluate f m ;;; ret tt
  | ODone m r => done f m r
  end.

(** An error thrown by linking goes to the importing program, which goes on. *)
Fixpoint run (f : nat) (l : list op) : M unit :=
  match l with
  | [] => ret tt
  | o :: l' =>
      fun s =>
        match perform f o s with
        | (Thrown _, s') | (Ok _, s') => run f l' s'
        | (Abort, s') => (Abort, s')
        | (NoFuel, s') => (NoFuel, s')
        end
  end.

End Graph.

(** rjs_module_new, 189-232, followed by loading the module and the modules it
    requests; rt->async_eval_cnt = 1, 2793. *)
Definition new_mod : modrec := Mod Unlinked 0 0 0 0 None None [] None false.
Definition start : st := St (fun _ => new_mod) [] 1 [].
