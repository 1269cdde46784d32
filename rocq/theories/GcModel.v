(** Model of src/lib/rjs_gc.c:41-202 (mark, scan, sweep), include/ratjs/rjs_gc.h:55-71,
    src/lib/rjs_weak_ref_opt.c:36-96, the weak maps and sets of
    src/lib/rjs_weak_map_object_inc.c / rjs_weak_set_object_inc.c, WeakRef objects
    (rjs_weak_ref_object_inc.c) and src/lib/rjs_finalization_registry_opt.c.

    Things are named by numbers, a freed thing is a number that is no longer in the list
    of things; using one is a use after free.  Not modelled: the memory threshold that
    decides when a collection starts (a collection may happen at any point here), the
    native stacks of generators, and what is behind [roots] (gc_scan_root). *)
From Coq Require Import List Bool Arith ZArith.
Import ListNotations.

Definition upd1 (f : nat -> bool) (t : nat) (b : bool) : nat -> bool := fun x => if x =? t then b else f x.

(** Flags of all things and the mark stack: rt->rb.gc_mark_stack, gc_mark_stack_full *)
Record gstate := { mk : nat -> bool; sc : nat -> bool; stk : list nat; full : bool }.

(** rjs_gc_mark, include/ratjs/rjs_gc.h:55-71 *)
Definition mark (cap : nat) (s : gstate) (t : nat) : gstate :=
  if mk s t then s
  else if length (stk s) <? cap then {| mk := upd1 (mk s) t true; sc := sc s; stk := t :: stk s; full := full s |}
  else {| mk := upd1 (mk s) t true; sc := sc s; stk := stk s; full := true |}.

(** gc_scan, lines 41-48; [kids t] are the things ops->scan marks, in order *)
Definition scan (kids : nat -> list nat) (cap : nat) (s : gstate) (t : nat) : gstate :=
  fold_left (mark cap) (kids t) {| mk := mk s; sc := upd1 (sc s) t true; stk := stk s; full := full s |}.

(** The inner loop, lines 110-116; [None] = it did not end within the fuel *)
Fixpoint drain (fuel : nat) (kids : nat -> list nat) (cap : nat) (s : gstate) : option gstate :=
  match stk s with
  | [] => Some s
  | t :: r =>
      match fuel with
      | O => None
      | S f => drain f kids cap (scan kids cap {| mk := mk s; sc := sc s; stk := r; full := full s |} t)
      end
  end.
(** The walk over all things, lines 132-136 *)
Definition rescan (kids : nat -> list nat) (cap : nat) (things : list nat) (s : gstate) : gstate :=
  fold_left (fun s t => if mk s t && negb (sc s t) then scan kids cap s t else s) things s.
(** gc_scan_things, lines 104-138.  gc_scan_count is set to 0 and never increased, so the
    capacity never changes (lines 121-128 are dead) *)
Fixpoint scan_things (fuel : nat) (kids : nat -> list nat) (cap : nat) (things : list nat) (s : gstate) : option gstate :=
  match drain (length things) kids cap s with
  | None => None
  | Some s1 =>
      if full s1 then
        match fuel with
        | O => None
        | S f => scan_things f kids cap things (rescan kids cap things {| mk := mk s1; sc := sc s1; stk := stk s1; full := false |})
        end
      else Some s1
  end.

(** gc_sweep, lines 141-158: unmarked things are freed, flags of the others cleared *)
Definition sweep (things : list nat) (s : gstate) : list nat * gstate :=
  (filter (mk s) things,
   {| mk := fun x => mk s x && negb (existsb (Nat.eqb x) (filter (mk s) things));
      sc := fun x => sc s x && negb (existsb (Nat.eqb x) (filter (mk s) things)); stk := stk s; full := full s |}).

(** Marking: gc_run lines 167-176 *)
Definition mark_phase (kids : nat -> list nat) (cap : nat) (things roots : list nat) (s : gstate) : option gstate :=
  scan_things (S (length things)) kids cap things (fold_left (mark cap) roots {| mk := mk s; sc := sc s; stk := stk s; full := false |}).

(** One collection of a heap without weak references: gc_run *)
Definition collect (kids : nat -> list nat) (cap : nat) (things roots : list nat) (s : gstate) : option (list nat * gstate) :=
  match mark_phase kids cap things roots s with
  | None => None
  | Some s' => Some (sweep things s')
  end.

(** ** Weak references *)
Inductive wkind := WObj | WColl.    (* WeakRef object | entry of a WeakMap or WeakSet *)
Record wref := { w_base : nat; w_ref : nat; w_kind : wkind }.
Inductive held := HThing (t : nat) | HPrim (z : Z).
(** RJS_FinalizationCallback *)
Record fcb := { f_reg : nat; f_target : nat; f_held : held; f_token : option nat }.
Record mem := {
  things : list nat;
  flags : gstate;
  links : nat -> list nat;                    (* strong references of a thing *)
  roots : list nat;
  weak : list wref;                           (* rt->weak_ref_list *)
  coll : list (nat * nat * option nat);       (* weak map or set, key, value if it is a thing *)
  target : list (nat * option nat);           (* WeakRef object, target *)
  funcs : list (nat * nat);                   (* registry, its callback *)
  cbs : list fcb;                             (* rt->final_cb_list *)
  jobs : list (nat * held)                    (* queued callbacks *)
}.

Definition held_things (h : held) : list nat := match h with HThing t => [t] | HPrim _ => [] end.
Definition func_of (m : mem) (r : nat) : option nat := option_map snd (find (fun x => fst x =? r) (funcs m)).
(** ops->scan: a weak collection or WeakRef scans only its ordinary part, a registry also
    its callback (finalization_registry_op_gc_scan, lines 152-160) *)
Definition scan_kids (m : mem) (t : nat) : list nat :=
  links m t ++ match func_of m t with Some f => [f] | None => [] end.
(** rjs_gc_scan_finalization_registry, lines 55-68 *)
Definition cb_roots (c : fcb) : list nat :=
  f_reg c :: held_things (f_held c) ++
  match f_token c with Some k => if k =? f_target c then [] else [k] | None => [] end.
Definition all_roots (m : mem) : list nat :=
  roots m ++ flat_map (fun j => fst j :: held_things (snd j)) (jobs m) ++ flat_map cb_roots (cbs m).

(** rjs_solve_weak_refs, rjs_weak_ref_opt.c:73-96 with the on_final functions *)
Definition del_entry (l : list (nat * nat * option nat)) (b r : nat) := filter (fun e => negb ((fst (fst e) =? b) && (snd (fst e) =? r))) l.
Definition clear_target (l : list (nat * option nat)) (b : nat) := map (fun e => if fst e =? b then (fst e, None) else e) l.
Fixpoint solve_weak (live : nat -> bool) (ws : list wref) (co : list (nat * nat * option nat)) (tg : list (nat * option nat))
  : list wref * list (nat * nat * option nat) * list (nat * option nat) :=
  match ws with
  | [] => ([], co, tg)
  | w :: r =>
      if negb (live (w_base w)) then solve_weak live r co tg
      else if negb (live (w_ref w)) then
        match w_kind w with
        | WColl => solve_weak live r (del_entry co (w_base w) (w_ref w)) tg
        | WObj => solve_weak live r co (clear_target tg (w_base w))
        end
      else let '(ws', co', tg') := solve_weak live r co tg in (w :: ws', co', tg')
  end.

(** rjs_solve_finalization_registry, rjs_finalization_registry_opt.c:108-149.  The hash
    table of a registry is the set of its callbacks with a token *)
Fixpoint solve_final (func : nat -> option nat) (live : nat -> bool) (cs : list fcb) : list fcb * list (nat * held) :=
  match cs with
  | [] => ([], [])
  | c :: r =>
      let '(cs', js) := solve_final func live r in
      if live (f_target c) then (c :: cs', js)
      else (cs', match func (f_reg c) with Some f => (f, f_held c) :: js | None => js end)
  end.

(** gc_run, lines 161-202; freeing a thing drops what it contains (hash_op_gc_free) *)
Definition gc_run (cap : nat) (m : mem) : option mem :=
  match mark_phase (scan_kids m) cap (things m) (all_roots m) (flags m) with
  | None => None
  | Some s =>
      let '(ws, co, tg) := solve_weak (mk s) (weak m) (coll m) (target m) in
      let '(cs, js) := solve_final (func_of m) (mk s) (cbs m) in
      let '(ts, s') := sweep (things m) s in
      let alive := fun t => existsb (Nat.eqb t) ts in
      Some {| things := ts; flags := s'; links := links m; roots := roots m; weak := ws;
              coll := filter (fun e => alive (fst (fst e))) co; target := filter (fun e => alive (fst e)) tg;
              funcs := filter (fun e => alive (fst e)) (funcs m); cbs := cs; jobs := jobs m ++ js |}
  end.

(** ** What a program can do between collections *)
Inductive mop :=
  | New (t : nat)                         (* rjs_gc_add: a fresh thing *)
  | Link (l : nat -> list nat) (r : list nat)   (* any change of strong references and roots *)
  | NewRef (b r : nat)                    (* new WeakRef: object b with target r *)
  | CollSet (b k : nat) (v : option nat)  (* WeakMap set / WeakSet add *)
  | CollDel (b k : nat)
  | NewReg (t f : nat)                    (* a registry with callback f *)
  | Register (r t : nat) (h : held) (k : option nat)
  | Unregister (r k : nat)
  | RunJob
  | Gc (cap : nat).

Definition with_weak (m : mem) ws co : mem :=
  {| things := things m; flags := flags m; links := links m; roots := roots m; weak := ws; coll := co; target := target m; funcs := funcs m; cbs := cbs m; jobs := jobs m |}.
Definition with_cbs (m : mem) cs : mem :=
  {| things := things m; flags := flags m; links := links m; roots := roots m; weak := weak m; coll := coll m; target := target m; funcs := funcs m; cbs := cs; jobs := jobs m |}.
Definition is_wref (b r : nat) (w : wref) : bool := (w_base w =? b) && (w_ref w =? r) && match w_kind w with WColl => true | WObj => false end.
Definition has_entry (co : list (nat * nat * option nat)) (b k : nat) : bool := existsb (fun e => (fst (fst e) =? b) && (snd (fst e) =? k)) co.
(** WeakMap_prototype_set, lines 162-192: the entry is overwritten or appended, the old weak
    reference freed and a new one appended (a WeakSet keeps the old one, which is the same
    reference) *)
Definition coll_set (m : mem) (b k : nat) (v : option nat) : mem :=
  let co := if has_entry (coll m) b k
            then map (fun e => if (fst (fst e) =? b) && (snd (fst e) =? k) then (b, k, v) else e) (coll m)
            else coll m ++ [(b, k, v)] in
  with_weak m (filter (fun w => negb (is_wref b k w)) (weak m) ++ [{| w_base := b; w_ref := k; w_kind := WColl |}]) co.
Definition coll_del (m : mem) (b k : nat) : mem :=
  with_weak m (filter (fun w => negb (is_wref b k w)) (weak m)) (del_entry (coll m) b k).
(** WeakMap_prototype_get, lines 105-126 *)
Definition coll_get (m : mem) (b k : nat) : option (option nat) :=
  option_map snd (find (fun e => (fst (fst e) =? b) && (snd (fst e) =? k)) (coll m)).

Definition same_token (r k : nat) (c : fcb) : bool := (f_reg c =? r) && match f_token c with Some k' => k' =? k | None => false end.
(** replace or remove the callback the hash table of the registry holds for the token *)
Fixpoint replace_cb (r k : nat) (n : fcb) (cs : list fcb) : list fcb :=
  match cs with [] => [] | c :: rest => if same_token r k c then n :: rest else c :: replace_cb r k n rest end.
Fixpoint remove_cb (r k : nat) (cs : list fcb) : list fcb :=
  match cs with [] => [] | c :: rest => if same_token r k c then rest else c :: remove_cb r k rest end.
(** rjs_finalization_register, lines 233-283, once the arguments are accepted *)
Definition register (cs : list fcb) (n : fcb) : list fcb :=
  match f_token n with
  | Some k => if existsb (same_token (f_reg n) k) cs then replace_cb (f_reg n) k n cs else cs ++ [n]
  | None => cs ++ [n]
  end.
Definition same_held (t : nat) (h : held) : bool := match h with HThing x => x =? t | HPrim _ => false end.

(** [None]: the operation did not finish (only [Gc] can) *)
Definition m_step (m : mem) (op : mop) : option mem :=
  match op with
  | New t => Some {| things := t :: things m; flags := flags m; links := fun x => if x =? t then [] else links m x; roots := t :: roots m;
                     weak := weak m; coll := coll m; target := target m; funcs := funcs m; cbs := cbs m; jobs := jobs m |}
  | Link l r => Some {| things := things m; flags := flags m; links := l; roots := r;
                     weak := weak m; coll := coll m; target := target m; funcs := funcs m; cbs := cbs m; jobs := jobs m |}
  | NewRef b r => Some {| things := things m; flags := flags m; links := links m; roots := roots m;
                     weak := weak m ++ [{| w_base := b; w_ref := r; w_kind := WObj |}]; coll := coll m; target := target m ++ [(b, Some r)];
                     funcs := funcs m; cbs := cbs m; jobs := jobs m |}
  | CollSet b k v => Some (coll_set m b k v)
  | CollDel b k => Some (coll_del m b k)
  | NewReg t f => Some {| things := things m; flags := flags m; links := links m; roots := roots m;
                     weak := weak m; coll := coll m; target := target m; funcs := funcs m ++ [(t, f)]; cbs := cbs m; jobs := jobs m |}
  | Register r t h k => if same_held t h then Some m (* TypeError, line 251 *)
                        else Some (with_cbs m (register (cbs m) {| f_reg := r; f_target := t; f_held := h; f_token := k |}))
  | Unregister r k => Some (with_cbs m (remove_cb r k (cbs m)))
  | RunJob => Some {| things := things m; flags := flags m; links := links m; roots := roots m;
                     weak := weak m; coll := coll m; target := target m; funcs := funcs m; cbs := cbs m; jobs := tl (jobs m) |}
  | Gc cap => gc_run cap m
  end.
Fixpoint m_run (m : mem) (ops : list mop) : option mem :=
  match ops with [] => Some m | op :: r => match m_step m op with Some m' => m_run m' r | None => None end end.
Definition clean : gstate := {| mk := fun _ => false; sc := fun _ => false; stk := []; full := false |}.
Definition empty_mem : mem :=
  {| things := []; flags := clean; links := fun _ => []; roots := []; weak := []; coll := []; target := []; funcs := []; cbs := []; jobs := [] |}.
