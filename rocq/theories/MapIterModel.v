(** Model of Map / Set objects: hash table, insertion-ordered entry list and
    live iterators.

    Source: /repo/src/lib/rjs_hash_object_inc.c lines 311-406 (hash_add,
    hash_get, hash_delete, hash_clear), 445-560 (iterators), and the forEach
    loop of /repo/src/lib/rjs_map_object_inc.c lines 168-192 (the Set version,
    rjs_set_object_inc.c, is the same loop).

    An entry is identified by its allocation number; the doubly linked entry
    list is the list of its nodes.  A node not in the list has been freed, so
    touching it is the outcome [None].  A [RJS_List*] cursor is [Some id], or
    [None] for the list head [&ho->list].  The hash table is the model of
    HashModel.v, mapping a key to the allocation number of its entry.
    A Set is a Map whose values are ignored. *)
From Coq Require Import List Arith Bool.
Import ListNotations.
From Verif Require Import HashModel.

Section MapIter.
  Variables K V : Type.
  Variable hkey : K -> nat.
  Variable keq : K -> K -> bool.

  (** RJS_MapEntry *)
  Record entry := mkEnt { eid : nat; ekey : K; eval : V }.

  (** RJS_HashIter: [curr], [done] *)
  Record iter := mkIter { curr : option nat; done : bool }.

  (** RJS_HashObject; [iters] is the iterator list ([None]: removed, as at the
      end of forEach), [fresh] the next allocation number. *)
  Record mo := mkMo {
    table : hash K nat;
    elist : list entry;
    iters : list (option iter);
    fresh : nat
  }.

  Definition mo_init : mo := mkMo (hash_init K nat) [] [] 0.

  (** Entry stored in a live node. *)
  Definition deref (l : list entry) (i : nat) : option entry :=
    find (fun e => eid e =? i) l.

  (** [n->next]; [None] if the node has been freed. *)
  Fixpoint next_of (l : list entry) (i : nat) : option (option nat) :=
    match l with
    | [] => None
    | e :: t =>
      if eid e =? i then Some (match t with [] => None | e' :: _ => Some (eid e') end)
      else next_of t i
    end.

  (** [list.next] *)
  Definition first (l : list entry) : option nat :=
    match l with [] => None | e :: _ => Some (eid e) end.

  (** [c->next] for a cursor: the head's next is the first node. *)
  Definition cur_next (l : list entry) (c : option nat) : option (option nat) :=
    match c with None => Some (first l) | Some i => next_of l i end.

  Definition map_iters (f : iter -> iter) (l : list (option iter)) : list (option iter) :=
    map (option_map f) l.

  Definition cur_is (c : option nat) (i : nat) : bool :=
    match c with Some j => j =? i | None => false end.

  (** hash_add lines 329-333: iterators waiting at the end move to the new
      entry. *)
  Definition fix_add (i : nat) (it : iter) : iter :=
    match curr it with
    | None => if done it then it else mkIter (Some i) (done it)
    | Some _ => it
    end.

  (** hash_delete lines 375-379 *)
  Definition fix_del (i : nat) (nx : option nat) (it : iter) : iter :=
    if cur_is (curr it) i then mkIter nx (done it) else it.

  (** rjs_hash_object_inc.c:312-341 — hash_add, followed by the value store of
      Map.prototype.set. *)
  Definition map_set (s : mo) (k : K) (v : V) : option mo :=
    match rjs_hash_lookup K nat hkey keq (table s) k with
    | None => None
    | Some (Some (_, i), _) =>
      match deref (elist s) i with
      | None => None
      | Some _ =>
        Some (mkMo (table s)
                   (map (fun e => if eid e =? i then mkEnt (eid e) (ekey e) v else e) (elist s))
                   (iters s) (fresh s))
      end
    | Some (None, pe) =>
      match rjs_hash_insert K nat hkey (table s) k (fresh s) pe with
      | None => None
      | Some t =>
        Some (mkMo t (elist s ++ [mkEnt (fresh s) k v])
                   (map_iters (fix_add (fresh s)) (iters s)) (S (fresh s)))
      end
    end.

  (** rjs_hash_object_inc.c:344-354 — hash_get *)
  Definition map_get (s : mo) (k : K) : option (option V) :=
    match rjs_hash_lookup K nat hkey keq (table s) k with
    | None => None
    | Some (Some (_, i), _) =>
      match deref (elist s) i with None => None | Some e => Some (Some (eval e)) end
    | Some (None, _) => Some None
    end.

  (** rjs_hash_object_inc.c:357-382 — hash_delete, then the entry is freed by
      the caller. *)
  Definition map_delete (s : mo) (k : K) : option mo :=
    match rjs_hash_lookup K nat hkey keq (table s) k with
    | None => None
    | Some (None, _) => Some s
    | Some (Some (_, i), pe) =>
      match rjs_hash_remove K nat (table s) pe, next_of (elist s) i with
      | Some t, Some nx =>
        Some (mkMo t (filter (fun e => negb (eid e =? i)) (elist s))
                   (map_iters (fix_del i nx) (iters s)) (fresh s))
      | _, _ => None
      end
    end.

  (** rjs_hash_object_inc.c:385-406 — hash_clear *)
  Definition map_clear (s : mo) : mo :=
    mkMo (hash_init K nat) [] (map_iters (fun it => mkIter None (done it)) (iters s)) (fresh s).

  (** rjs_hash_object_inc.c:446-470 — hash_iter_new (and the start of forEach) *)
  Definition iter_new (s : mo) : mo :=
    mkMo (table s) (elist s) (iters s ++ [Some (mkIter (first (elist s)) false)]) (fresh s).

  Inductive bop :=
  | BSet (k : K) (v : V)
  | BDelete (k : K)
  | BClear
  | BNew.

  Definition bstep (s : mo) (o : bop) : option mo :=
    match o with
    | BSet k v => map_set s k v
    | BDelete k => map_delete s k
    | BClear => Some (map_clear s)
    | BNew => Some (iter_new s)
    end.

  Fixpoint bsteps (s : mo) (l : list bop) : option mo :=
    match l with
    | [] => Some s
    | o :: t => match bstep s o with Some s' => bsteps s' t | None => None end
    end.

  Definition iter_at (s : mo) (n : nat) : option iter :=
    match nth_error (iters s) n with Some (Some it) => Some it | _ => None end.

  Fixpoint set_nth {X} (l : list X) (n : nat) (x : X) : list X :=
    match l, n with
    | [], _ => []
    | _ :: t, O => x :: t
    | y :: t, S m => y :: set_nth t m x
    end.

  Definition set_iter (s : mo) (n : nat) (it : option iter) : mo :=
    mkMo (table s) (elist s) (set_nth (iters s) n it) (fresh s).

  Inductive out := OYield (k : K) (v : V) | OEnd | OVal (v : option V) | OSize (n : nat) | ONone.

  (** rjs_hash_object_inc.c:473-560 — hash_iter_next.  For key/value iteration
      the result pair is stored with rjs_set_index (lines 538-539), which can
      run setters of Array.prototype: [mid1] is what the setter of index 0
      does (before the value is read), [mid2] what the setter of index 1 does
      (before the cursor is advanced).  Using an iterator that was removed is
      not possible from script: the model returns [None]. *)
  Definition iter_next (s : mo) (n : nat) (mid1 mid2 : list bop) : option (mo * out) :=
    match iter_at s n with
    | None => None
    | Some it =>
      match curr it with
      | None => Some (set_iter s n (Some (mkIter None true)), OEnd)
      | Some i =>
        match deref (elist s) i with
        | None => None
        | Some e =>
          match bsteps s mid1 with
          | None => None
          | Some s1 =>
            match deref (elist s1) i with      (* &me->value *)
            | None => None
            | Some e1 =>
              match bsteps s1 mid2 with
              | None => None
              | Some s2 =>
                match iter_at s2 n with
                | None => None
                | Some it2 =>
                  match cur_next (elist s2) (curr it2) with   (* hi->curr->next *)
                  | None => None
                  | Some c => Some (set_iter s2 n (Some (mkIter c (done it2))),
                                    OYield (ekey e) (eval e1))
                  end
                end
              end
            end
          end
        end
      end
    end.

  (** rjs_map_object_inc.c:174-190 — one turn of the forEach loop up to the
      callback; at the end the iterator is removed from the list. *)
  Definition foreach_turn (s : mo) (n : nat) : option (mo * out) :=
    match iter_at s n with
    | None => None
    | Some it =>
      match curr it with
      | None => Some (set_iter s n None, OEnd)
      | Some i =>
        match deref (elist s) i, next_of (elist s) i with
        | Some e, Some c =>
          Some (set_iter s n (Some (mkIter c (done it))), OYield (ekey e) (eval e))
        | _, _ => None
        end
      end
    end.

  Inductive op :=
  | OpB (b : bop)
  | OpGet (k : K)
  | OpSize
  | OpNext (n : nat) (mid1 mid2 : list bop)
  | OpTurn (n : nat)          (* forEach loop turn *)
  | OpDrop (n : nat).         (* forEach left by an exception / iterator freed *)

  (** Operations naming an iterator that does not exist (any more) cannot be
      issued by script; they are no-ops. *)
  Definition live_iter (s : mo) (n : nat) : bool :=
    match iter_at s n with Some _ => true | None => false end.

  Definition step (s : mo) (o : op) : option (mo * out) :=
    match o with
    | OpB b => match bstep s b with Some s' => Some (s', ONone) | None => None end
    | OpGet k => match map_get s k with Some r => Some (s, OVal r) | None => None end
    | OpSize => Some (s, OSize (entry_num K nat (table s)))
    | OpNext n m1 m2 => if live_iter s n then iter_next s n m1 m2 else Some (s, ONone)
    | OpTurn n => if live_iter s n then foreach_turn s n else Some (s, ONone)
    | OpDrop n => Some (set_iter s n None, ONone)
    end.

  Fixpoint run (s : mo) (l : list op) : option (mo * list out) :=
    match l with
    | [] => Some (s, [])
    | o :: t =>
      match step s o with
      | None => None
      | Some (s', x) =>
        match run s' t with Some (s'', xs) => Some (s'', x :: xs) | None => None end
      end
    end.
End MapIter.
