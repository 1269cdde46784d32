(** Model of Atomics.wait and Atomics.notify,
    src/lib/rjs_atomics_object_inc.c:1161-1322, with the waiter lists of
    src/lib/rjs_data_block_opt.c:211-304, for one shared data block.

    Agents run concurrently under a schedule.  The mutex of the data block is
    [lock]; a waiter is blocked in pthread_cond_wait / pthread_cond_timedwait on
    its own condition variable.  pthread_cond_wait releases the mutex and blocks
    in one step; the thread leaves it when it is signalled, when its time is over
    (timedwait) or spuriously (POSIX allows it), and then needs the mutex again.
    The memory cells hold the values compared by wait; agents change them with
    [OPoke] (any of the Atomics operations or plain stores; C38 is about those).
    Waiters and waiter lists are allocated with malloc: a waiter is named by a
    fresh number; touching a freed waiter is the outcome [crashed].
    Timeouts: only whether there is one (the value INFINITY or not).
    Argument conversion and validation are not part of this model. *)
From Coq Require Import ZArith List Bool Arith.
Import ListNotations.
From Verif Require Import StrModel NumModel.

(** Calls: wait on position [pos] for value [v], with a timeout or without;
    notify [c] waiters ([None]: INFINITY); change a cell. *)
Inductive op := OWait (pos : nat) (v : Z) (timed : bool) | ONotify (pos : nat) (c : option nat) | OPoke (pos : nat) (v : Z).

(** What wait returns after it blocked: "ok", "timed-out". *)
Inductive result := ROk | RTimedOut.

(** Where the agent is. *)
Inductive pc :=
| PIdle
| PStart (o : op)                        (* before rjs_array_buffer_lock *)
| PHeld (o : op)                         (* mutex taken *)
| PBlocked (w : nat) (pos : nat) (timed : bool)   (* in pthread_cond_(timed)wait *)
| PWoken (w : nat) (pos : nat) (expired : bool)   (* woken, has to take the mutex again; [r == ETIMEDOUT] *)
| PAwake (w : nat) (pos : nat) (expired : bool)   (* pthread_cond_wait returned, mutex held *)
| PNotify (pos : nat) (c : option nat) (n : nat)  (* loop of notify, [n] so far *)
| PUnlock.                               (* before rjs_array_buffer_unlock *)

Record agent := mkAgent { todo : list op; at_ : pc }.

(** What happened, in order. *)
Inductive event :=
| EPoke (pos : nat) (v : Z)                         (* a cell changes *)
| EEnter (a w pos : nat) (v x : Z)                  (* wait for [v] read [x] and blocks as waiter [w] *)
| ENotEqual (a pos : nat) (v x : Z)                 (* wait for [v] read [x] and returns "not-equal" *)
| ENotify (a pos : nat) (c : option nat)            (* notify has the mutex *)
| ESignal (a w : nat)                               (* notify takes [w] from the list and signals it *)
| ECount (a n : nat)                                (* notify is going to return [n] *)
| EExpire (w : nat)                                 (* the time of [w] is over while it is blocked *)
| ESpurious (w : nat)                               (* [w] wakes up without cause *)
| EDone (a w : nat) (r : result).                   (* wait is going to return [r] *)

Record st := mkSt {
  cells : nat -> Z;
  lock : option nat;
  lists : list (nat * list nat);   (* db->waiter_lists: position, waiters in order *)
  live : list nat;                 (* allocated waiters *)
  fresh : nat;
  agents : list agent;
  log : list event;
  crashed : bool
}.

Definition set_nth {A} (l : list A) (i : nat) (x : A) : list A := firstn i l ++ x :: skipn (S i) l.

(** rjs_get_waiter_list, rjs_data_block_opt.c:219-243: the waiters of position
    [pos]; a missing list is created at the end. *)
Fixpoint find_list (ls : list (nat * list nat)) (pos : nat) : option (list nat) :=
  match ls with
  | [] => None
  | (p, ws) :: r => if p =? pos then Some ws else find_list r pos
  end.
Definition get_waiter_list (ls : list (nat * list nat)) (pos : nat) : list (nat * list nat) :=
  match find_list ls pos with Some _ => ls | None => ls ++ [(pos, [])] end.
(** Change the waiters of the list with position [pos]. *)
Fixpoint upd_list (ls : list (nat * list nat)) (pos : nat) (f : list nat -> list nat) : list (nat * list nat) :=
  match ls with
  | [] => []
  | (p, ws) :: r => if p =? pos then (p, f ws) :: r else (p, ws) :: upd_list r pos f
  end.
(** rjs_list_remove of waiter [w], which is in one list or, after
    rjs_list_init, in none. *)
Definition unlink (ls : list (nat * list nat)) (w : nat) : list (nat * list nat) :=
  map (fun p => (fst p, filter (fun x => negb (x =? w)) (snd p))) ls.

Definition qv (ls : list (nat * list nat)) (pos : nat) : list nat :=
  match find_list ls pos with Some ws => ws | None => [] end.

Definition mem_nat (w : nat) (l : list nat) : bool := existsb (Nat.eqb w) l.

(** Choices of the environment for a blocked agent. *)
Inductive choice := Go | Expire | Spurious.

Section Step.
  Variables (s : st) (a : nat) (g : agent).
  Definition move (lk : option nat) (p : pc) (es : list event) : st :=
    mkSt (cells s) lk (lists s) (live s) (fresh s) (set_nth (agents s) a (mkAgent (todo g) p)) (log s ++ es) (crashed s).
  (** All waiters in the list of [pos] are allocated; list operations touch the
      neighbours of a node. *)
  Definition intact (pos : nat) : bool := forallb (fun w => mem_nat w (live s)) (qv (lists s) pos).
  Definition with_lists (ls : list (nat * list nat)) (lv : list nat) (fr : nat) (c : bool) (t : st) : st :=
    mkSt (cells t) (lock t) ls lv fr (agents t) (log t) c.

  (** pthread_cond_signal on the condition variable of [w]: the agent blocked on
      it wakes up; nothing happens when none is blocked on it. *)
  Definition signal (w : nat) (gs : list agent) : list agent :=
    map (fun x => match at_ x with
                  | PBlocked w' p _ => if w' =? w then mkAgent (todo x) (PWoken w p false) else x
                  | _ => x
                  end) gs.

  Definition agent_step (ch : choice) : st :=
    match at_ g with
    | PIdle =>
      match todo g with
      | [] => s
      | o :: rest =>
        mkSt (cells s) (lock s) (lists s) (live s) (fresh s) (set_nth (agents s) a (mkAgent rest (PStart o))) (log s) (crashed s)
      end
    | PStart (OPoke pos v) =>
      mkSt (fun p => if p =? pos then v else cells s p) (lock s) (lists s) (live s) (fresh s)
           (set_nth (agents s) a (mkAgent (todo g) PIdle)) (log s ++ [EPoke pos v]) (crashed s)
    | PStart o => match lock s with None => move (Some a) (PHeld o) [] | Some _ => s end
    (* Atomics_wait, lines 1229-1240; rjs_add_waiter, rjs_data_block_opt.c:253-283 *)
    | PHeld (OWait pos v timed) =>
      if (cells s pos =? v)%Z then
        let ls := get_waiter_list (lists s) pos in
        let w := fresh s in
        with_lists (upd_list ls pos (fun ws => ws ++ [w])) (w :: live s) (S w) (crashed s || negb (intact pos))
          (move None (PBlocked w pos timed) [EEnter a w pos v (cells s pos)])
      else move (lock s) PUnlock [ENotEqual a pos v (cells s pos)]
    (* Atomics_notify, lines 1291-1315 *)
    | PHeld (ONotify pos c) =>
      with_lists (get_waiter_list (lists s) pos) (live s) (fresh s) (crashed s)
        (move (lock s) (PNotify pos c 0) [ENotify a pos c])
    | PHeld (OPoke _ _) => s
    | PNotify pos c n =>
      if (match c with None => true | Some c => n <? c end) then
        match find_list (lists s) pos with
        | Some (w :: ws) =>
          (* w is read, unlinked and signalled *)
          let t := move (lock s) (PNotify pos c (S n)) [ESignal a w] in
          mkSt (cells t) (lock t) (upd_list (lists s) pos (fun _ => ws)) (live s) (fresh s)
               (signal w (agents t)) (log t) (crashed s || negb (intact pos))
        | _ => move (lock s) (PUnlock) [ECount a n]
        end
      else move (lock s) (PUnlock) [ECount a n]
    | PBlocked w pos timed =>
      match ch with
      | Go => s
      | Expire => if timed then move (lock s) (PWoken w pos true) [EExpire w] else s
      | Spurious => move (lock s) (PWoken w pos false) [ESpurious w]
      end
    | PWoken w pos e => match lock s with None => move (Some a) (PAwake w pos e) [] | Some _ => s end
    (* rjs_data_block_opt.c:284-288 *)
    | PAwake w pos e =>
      let r := if e then RTimedOut else ROk in
      with_lists (unlink (lists s) w) (filter (fun x => negb (x =? w)) (live s)) (fresh s)
                 (crashed s || negb (mem_nat w (live s)) || negb (intact pos))
        (move (lock s) PUnlock [EDone a w r])
    | PUnlock => move None PIdle []
    end.
End Step.

Definition step (s : st) (x : nat * choice) : st :=
  match nth_error (agents s) (fst x) with Some g => agent_step s (fst x) g (snd x) | None => s end.
Definition run (sched : list (nat * choice)) (s : st) : st := fold_left step sched s.
Definition start (m : nat -> Z) (progs : list (list op)) : st :=
  mkSt m None [] [] 0 (map (fun p => mkAgent p PIdle) progs) [] false.

(** The deadline of pthread_cond_timedwait, rjs_data_block_opt.c:268-280:
    [ms] milliseconds after the time [sec], [nsec]. *)
Local Open Scope Z_scope.
Definition deadline (sec nsec ms : Z) : Z * Z :=
  let sec := sec + ms / 1000 in
  let nsec := nsec + (ms mod 1000) * 1000000 in
  if 1000000000 <=? nsec then (sec + 1, nsec - 1000000000) else (sec, nsec).

(** The timeout argument, already a Number ([t], a double pattern):
    rjs_atomics_object_inc.c:1211-1216 and rjs_data_block_opt.c:265-280.
    [None]: wait for ever.  The cast to uint64_t is undefined from 2^64 on. *)
Definition wait_deadline (t sec nsec : Z) : sres (option (Z * Z)) :=
  if is_nan t || (is_inf t && negb (dsign t)) then SOk None
  else if is_inf t then SOk (Some (deadline sec nsec 0))
  else
    let ms := if 0 <? dval t then dtrunc t else 0 in
    if ms <? 2 ^ 64 then SOk (Some (deadline sec nsec ms)) else SUB.
