(** Model of the Atomics operations on one element of a shared buffer,
    src/lib/rjs_atomics_object_inc.c (add 108-238, and 240-418,
    compareExchange 421-594, exchange 597-752, load 777-804, or 807-958,
    store 961-1003, sub 1006-1158, xor 1327-1470) with
    rjs_get_value_from_buffer / rjs_set_value_in_buffer,
    src/lib/rjs_array_buffer_opt.c:669-722, and rjs_data_block_lock / unlock,
    src/lib/rjs_data_block_opt.c:69-84.

    Any number of agents run concurrently; a schedule says which agent does its
    next memory access, lock operation, call or return.
    The read-modify-write operations are one C11 atomic operation.
    load and store take the mutex of the data block and then access the element
    byte by byte with plain accesses ([rjs_get_value_from_raw],
    [rjs_set_value_in_raw]); bytes are accessed in ascending order (the C text
    leaves the order of the reads open).
    Memory is sequentially consistent: C11 gives racing plain accesses no
    meaning at all, which is the separate notion [race].
    Arguments are integers, already converted with ToIntegerOrInfinity or
    ToBigInt (conversion: NumModel.v, BigModel.v; infinities are not modelled
    here). *)
From Coq Require Import ZArith List Bool.
Import ListNotations.
From Verif Require Import BufModel.
Local Open Scope Z_scope.

(** atomic_fetch_add, _sub, _and, _or, _xor, atomic_exchange *)
Inductive rmw := Add | Sub | And | Or | Xor | Xchg.
(** A call of an Atomics function. *)
Inductive op := OLoad | OStore (v : Z) | ORmw (k : rmw) (v : Z) | OCas (e r : Z).

(** validate_integer_typed_array, rjs_atomics_object_inc.c:43-80 (not waitable) *)
Definition integer_type (t : etype) : bool :=
  match t with UINT8C | FLOAT32 | FLOAT64 => false | _ => true end.
(** int8_t, int16_t, int32_t, int64_t *)
Definition is_signed (t : etype) : bool :=
  match t with INT8 | INT16 | INT32 | BIGINT64 => true | _ => false end.

(** 2^bits of the element type *)
Definition modulus (t : etype) : Z := 2 ^ (8 * Z.of_nat (esize t)).
(** the bits of the converted argument, rjs_to_int8 ... rjs_big_int_to_uint64 *)
Definition to_word (t : etype) (v : Z) : Z := v mod modulus t.
(** the number for the C value with these bits *)
Definition of_word (t : etype) (w : Z) : Z :=
  if is_signed t && (modulus t <=? 2 * w) then w - modulus t else w.

(** the new bits: C11 atomic arithmetic wraps around, also for signed types *)
Definition rmw_word (t : etype) (k : rmw) (w x : Z) : Z :=
  match k with
  | Add => (w + x) mod modulus t
  | Sub => (w - x) mod modulus t
  | And => Z.land w x
  | Or => Z.lor w x
  | Xor => Z.lxor w x
  | Xchg => x
  end.

(** What an agent does next. *)
Inductive pc :=
| PIdle                          (* between calls *)
| PStart (o : op)                (* arguments converted *)
| PRead (acc : list Z)           (* load, mutex held, bytes read so far *)
| PWrite (v : Z) (i : nat)       (* store, mutex held, next byte to write *)
| PUnlock (r : Z)                (* mutex still held, result known *)
| PRet (r : Z).                  (* about to return *)

(** An agent: calls still to make, calls completed, control state. *)
Record agent := mkAgent { todo : list op; made : nat; at_ : pc }.

(** History: call number [k] of agent [t] starts / returns. *)
Definition id := (nat * nat)%type.
Inductive event := EInv (i : id) (o : op) | ERet (i : id) (r : Z).

Record st := mkSt { mem : list Z; lock : option nat; agents : list agent; hist : list event }.

Definition set_nth {A} (l : list A) (i : nat) (x : A) : list A := firstn i l ++ x :: skipn (S i) l.

Section Step.
  Variables (t : etype) (le : bool).

  (** One step of agent [a], whose state is [g]. A lock operation that has to
      wait leaves the state unchanged. *)
  Definition agent_step (s : st) (a : nat) (g : agent) : st :=
    let put m l p := mkSt m l (set_nth (agents s) a (mkAgent (todo g) (made g) p)) (hist s) in
    match at_ g with
    | PIdle =>
      match todo g with
      | [] => s
      | o :: rest =>
        mkSt (mem s) (lock s) (set_nth (agents s) a (mkAgent rest (made g) (PStart o)))
             (hist s ++ [EInv (a, made g) o])
      end
    | PStart OLoad => match lock s with None => put (mem s) (Some a) (PRead []) | Some _ => s end
    | PStart (OStore v) => match lock s with None => put (mem s) (Some a) (PWrite v 0) | Some _ => s end
    | PStart (ORmw k v) =>
      let w := word le (mem s) in
      put (bytes le (esize t) (rmw_word t k w (to_word t v))) (lock s) (PRet (of_word t w))
    | PStart (OCas e r) =>
      let w := word le (mem s) in
      put (if w =? to_word t e then bytes le (esize t) (to_word t r) else mem s) (lock s) (PRet (of_word t w))
    | PRead acc =>
      let acc' := acc ++ [nth (length acc) (mem s) 0] in
      put (mem s) (lock s)
          (if (length acc' =? esize t)%nat then PUnlock (of_word t (word le acc')) else PRead acc')
    | PWrite v i =>
      put (set_nth (mem s) i (nth i (bytes le (esize t) (to_word t v)) 0)) (lock s)
          (if (S i =? esize t)%nat then PUnlock v else PWrite v (S i))
    | PUnlock r => put (mem s) None (PRet r)
    | PRet r =>
      mkSt (mem s) (lock s) (set_nth (agents s) a (mkAgent (todo g) (S (made g)) PIdle))
           (hist s ++ [ERet (a, made g) r])
    end.

  Definition step (s : st) (a : nat) : st :=
    match nth_error (agents s) a with Some g => agent_step s a g | None => s end.

  Definition run (sched : list nat) (s : st) : st := fold_left step sched s.

  (** All agents at the start of their programs. *)
  Definition start (m : list Z) (progs : list (list op)) : st :=
    mkSt m None (map (fun p => mkAgent p 0 PIdle) progs) [].
End Step.

(** The memory access an agent does in its next step: whether it is a plain
    (non-atomic) access and whether it writes. All accesses of size one byte are
    compared as if they touched the whole element; byte [i] is given when plain. *)
Definition next_access (g : agent) : option (bool * bool * option nat) :=
  match at_ g with
  | PRead acc => Some (true, false, Some (length acc))
  | PWrite _ i => Some (true, true, Some i)
  | PStart (ORmw _ _) | PStart (OCas _ _) => Some (false, true, None)
  | _ => None
  end.
(** Two agents about to make conflicting accesses, not both atomic: a data race
    (C11 5.1.2.4), undefined behavior. *)
Definition race (s : st) : Prop :=
  exists a b ga gb pa wa xa pb wb xb, a <> b /\
    nth_error (agents s) a = Some ga /\ nth_error (agents s) b = Some gb /\
    next_access ga = Some (pa, wa, xa) /\ next_access gb = Some (pb, wb, xb) /\
    (pa || pb) = true /\ (wa || wb) = true /\
    (xa = None \/ xb = None \/ xa = xb).
