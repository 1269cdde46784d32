(** Model of the chained hash table.

    Source: /repo/src/lib/rjs_hash.c lines 28-182 and
    /repo/include/ratjs/rjs_hash.h lines 50-65.

    A table is an array of chains.  While [list_num == 1] the C code keeps the
    single chain inline ([hash->e.list]); this is the list with one chain here.
    A position pointer [RJS_HashEntry **pe] is a pair (bucket, offset in the
    chain); dereferencing an invalid one is the outcome [None].
    Size arithmetic is unbounded ([size_t] cannot overflow with the entries
    that fit in memory). *)
From Coq Require Import List Arith Bool.
Import ListNotations.

Section Hash.
  Variable K E : Type.
  (** [ops->key] and [ops->equal] (RJS_HashOps). *)
  Variable hkey : K -> nat.
  Variable keq : K -> K -> bool.

  (** RJS_Hash: bucket array and [entry_num]; an entry is its key and its
      payload (the structure embedding the RJS_HashEntry). *)
  Record hash := mkHash { lists : list (list (K * E)); entry_num : nat }.

  (** [hash->list_num] *)
  Definition list_num (h : hash) : nat := length (lists h).

  (** rjs_hash.h:57-65 — rjs_hash_init *)
  Definition hash_init : hash := mkHash [[]] 0.

  (** Replace element [i] of an array. *)
  Fixpoint upd {X} (l : list X) (i : nat) (x : X) : option (list X) :=
    match l, i with
    | [], _ => None
    | _ :: t, O => Some (x :: t)
    | y :: t, S i' =>
      match upd t i' x with Some t' => Some (y :: t') | None => None end
    end.

  (** rjs_hash.c:47-56 — move one entry to the head of its new chain;
      [None] if the computed bucket were outside the new array. *)
  Definition rehash_entry (ns : nat) (nb : option (list (list (K * E))))
             (e : K * E) : option (list (list (K * E))) :=
    match nb with
    | None => None
    | Some b =>
      let p := hkey (fst e) mod ns in
      match nth_error b p with
      | Some chain => upd b p (e :: chain)
      | None => None
      end
    end.

  (** rjs_hash.c:29-64 — hash_expand *)
  Definition hash_expand (h : hash) : option hash :=
    let ns := Nat.max (entry_num h) 8 in
    match fold_left (fun nb chain => fold_left (rehash_entry ns) chain nb)
                    (lists h) (Some (repeat [] ns)) with
    | Some nb => Some (mkHash nb (entry_num h))
    | None => None
    end.

  (** rjs_hash.c:103-109 and 148-154 — bucket of a key *)
  Definition bucket (h : hash) (k : K) : nat :=
    if list_num h =? 1 then 0 else hkey k mod list_num h.

  (** rjs_hash.c:111-118 — walk a chain from offset [pos]; returns the found
      entry and the final position. *)
  Fixpoint walk (chain : list (K * E)) (k : K) (pos : nat)
    : option (K * E) * nat :=
    match chain with
    | [] => (None, pos)
    | e :: t => if keq (fst e) k then (Some e, pos) else walk t k (S pos)
    end.

  (** rjs_hash.c:92-127 — rjs_hash_lookup: the entry and the position; the
      outer [None] is an invalid bucket access. *)
  Definition rjs_hash_lookup (h : hash) (k : K)
    : option (option (K * E) * option (nat * nat)) :=
    if entry_num h =? 0 then Some (None, None)
    else
      let b := bucket h k in
      match nth_error (lists h) b with
      | None => None
      | Some chain =>
        let '(r, pos) := walk chain k 0 in Some (r, Some (b, pos))
      end.

  (** Insert into a chain at an offset. *)
  Fixpoint insert_at {X} (l : list X) (pos : nat) (x : X) : option (list X) :=
    match pos, l with
    | O, _ => Some (x :: l)
    | S p, y :: t =>
      match insert_at t p x with Some t' => Some (y :: t') | None => None end
    | S _, [] => None
    end.

  (** rjs_hash.c:138-162 — rjs_hash_insert *)
  Definition rjs_hash_insert (h : hash) (k : K) (e : E)
             (pe : option (nat * nat)) : option hash :=
    let step1 :=
      if list_num h * 3 <=? entry_num h
      then match hash_expand h with
           | Some h' => Some (h', None)
           | None => None
           end
      else Some (h, pe) in
    match step1 with
    | None => None
    | Some (h1, pe1) =>
      let '(b, pos) := match pe1 with
                       | Some p => p
                       | None => (bucket h1 k, 0)
                       end in
      match nth_error (lists h1) b with
      | None => None
      | Some chain =>
        match insert_at chain pos (k, e) with
        | None => None
        | Some chain' =>
          match upd (lists h1) b chain' with
          | None => None
          | Some ls => Some (mkHash ls (S (entry_num h1)))
          end
        end
      end
    end.

  (** Remove the element of a chain at an offset. *)
  Fixpoint remove_at {X} (l : list X) (pos : nat) : option (list X) :=
    match l, pos with
    | [], _ => None
    | _ :: t, O => Some t
    | y :: t, S p =>
      match remove_at t p with Some t' => Some (y :: t') | None => None end
    end.

  (** rjs_hash.c:170-182 — rjs_hash_remove ([assert(pe)], then [*pe]
      must be an entry). *)
  Definition rjs_hash_remove (h : hash) (pe : option (nat * nat)) : option hash :=
    match pe with
    | None => None
    | Some (b, pos) =>
      match nth_error (lists h) b with
      | None => None
      | Some chain =>
        match remove_at chain pos with
        | None => None
        | Some chain' =>
          match upd (lists h) b chain' with
          | None => None
          | Some ls => Some (mkHash ls (entry_num h - 1))
          end
        end
      end
    end.

  (** The client protocol used throughout the engine, e.g.
      rjs_hash_object_inc.c:320-328 (add) and 366-372 (delete): look up, then
      insert at the returned position, or at NULL as in rjs_object.c:407. *)
  Inductive hop :=
  | HAdd (k : K) (e : E)          (* add with the looked-up position *)
  | HAddNull (k : K) (e : E)      (* add with pe = NULL after a failed lookup *)
  | HDel (k : K).

  Definition hstep (h : hash) (o : hop) : option hash :=
    match o with
    | HAdd k e =>
      match rjs_hash_lookup h k with
      | Some (Some _, _) => Some h
      | Some (None, pe) => rjs_hash_insert h k e pe
      | None => None
      end
    | HAddNull k e =>
      match rjs_hash_lookup h k with
      | Some (Some _, _) => Some h
      | Some (None, _) => rjs_hash_insert h k e None
      | None => None
      end
    | HDel k =>
      match rjs_hash_lookup h k with
      | Some (Some _, pe) => rjs_hash_remove h pe
      | Some (None, _) => Some h
      | None => None
      end
    end.

  (** A whole history. *)
  Fixpoint hrun (h : hash) (ops : list hop) : option hash :=
    match ops with
    | [] => Some h
    | o :: t => match hstep h o with Some h' => hrun h' t | None => None end
    end.
End Hash.
