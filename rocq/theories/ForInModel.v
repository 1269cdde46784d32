(** Model of the iterator behind the for-in statement.

    Source: /repo/src/lib/rjs_for_in_iterator.c lines 27-58 (hash operations of
    the visited keys), 110-145 (rjs_for_in_iterator_new) and 147-225 (next);
    /repo/src/lib/rjs_hash.c lines 28-162 (the table); rjs_string.c lines
    858-883 (hash code), 886-949 (equality), 1378-1391 (normalisation of an
    index string); /repo/include/ratjs/rjs_value.h lines 455-468
    (rjs_value_get_string).

    A string value is either an index string (a tagged number) or a pointer to
    a string.  rjs_value_get_string replaces an index string by the pointer in
    place, so that looking up a key can change the keys of the table and the
    key that is looked up; both effects are modelled.

    The objects that are enumerated are not modelled: every call of
    [[OwnPropertyKeys]], [[GetOwnProperty]] and [[GetPrototypeOf]] is a
    question, answered by the next element of an arbitrary list of answers.
    The list therefore covers proxies, changes made by the loop body and
    ordinary objects alike.  Only the part of the key list from [fii->id] on is
    kept.  Allocation does not fail.  That no bucket is accessed out of range
    is C11; here such an access reads an empty chain. *)
From Coq Require Import List ZArith Bool.
Import ListNotations.
From Verif Require KeyModel.
Local Open Scope Z_scope.

(** A property key value: index string, string, symbol. *)
Inductive key := Idx (n : Z) | Str (s : list Z) | Sym (y : Z).

(** rjs_string.c:1378-1391 *)
Definition name (k : key) : list Z :=
  match k with Idx n => KeyModel.decimal n | Str s => s | Sym _ => [] end.

(** rjs_value_get_string, rjs_value.h:455-468: the value after the call *)
Definition normal (k : key) : key :=
  match k with Idx n => Str (KeyModel.decimal n) | _ => k end.

Fixpoint same (a b : list Z) : bool :=
  match a, b with
  | [], [] => true
  | x :: a, y :: b => (x =? y) && same a b
  | _, _ => false
  end.

(** rjs_string_equal, rjs_string.c:936-949: the result and the two values
    after the call *)
Definition string_equal (a b : key) : bool * key * key :=
  match a, b with
  | Idx n, Idx m => (n =? m, a, b)
  | _, _ => (same (name a) (name b), normal a, normal b)
  end.

(** hash_op_string_key, rjs_string.c:858-883 *)
Definition text_code (s : list Z) : Z :=
  match s with
  | [] => 0
  | _ => fold_left (fun v c => Z.lor (v * 32 mod 2 ^ 64) c) s 0x19781009
  end.

(** hash_op_string_prop_key, rjs_for_in_iterator.c:28-38 *)
Definition code (k : key) : Z :=
  match k with Idx n => n | _ => text_code (name k) end.

(** RJS_Hash: the chains and [entry_num] *)
Record table := mkT { lists : list (list key); entry_num : nat }.

(** rjs_hash_init, rjs_hash.h:57-65 *)
Definition t_init : table := mkT [[]] 0.

Definition chain (t : table) (b : nat) : list key := nth b (lists t) [].

Fixpoint upd (l : list (list key)) (i : nat) (x : list key) : list (list key) :=
  match l, i with
  | [], _ => []
  | _ :: t, O => x :: t
  | y :: t, S i => y :: upd t i x
  end.

(** rjs_hash.c:47-49 *)
Definition slot (n : nat) (k : key) : nat := Z.to_nat (code k mod Z.of_nat n).

(** rjs_hash.c:103-109, 148-154 *)
Definition bucket (t : table) (k : key) : nat :=
  if Nat.eqb (length (lists t)) 1 then O else slot (length (lists t)) k.

(** rjs_hash.c:47-56 *)
Definition rehash (n : nat) (ls : list (list key)) (k : key) : list (list key) :=
  upd ls (slot n k) (k :: nth (slot n k) ls []).

(** hash_expand, rjs_hash.c:28-64 *)
Definition expand (t : table) : table :=
  let n := Nat.max (entry_num t) 8 in
  mkT (fold_left (fun ls c => fold_left (rehash n) c ls) (lists t) (repeat [] n)) (entry_num t).

(** rjs_hash.c:111-118: whether the key is in the chain, the chain and the key
    after the comparisons *)
Fixpoint walk (c : list key) (k : key) : bool * list key * key :=
  match c with
  | [] => (false, [], k)
  | e :: r =>
      let '(eq, e, k) := string_equal e k in
      if eq then (true, e :: r, k)
      else let '(f, r, k) := walk r k in (f, e :: r, k)
  end.

(** rjs_hash_lookup, rjs_hash.c:80-127: found, the table and the key
    afterwards, and the chain whose end is the returned position *)
Definition lookup (t : table) (k : key) : bool * table * key * option nat :=
  if Nat.eqb (entry_num t) 0 then (false, t, k, None)
  else
    let b := bucket t k in
    let '(f, c, k) := walk (chain t b) k in
    (f, mkT (upd (lists t) b c) (entry_num t), k, Some b).

(** rjs_hash_insert, rjs_hash.c:129-162, at the position of a failed lookup *)
Definition insert (t : table) (k : key) (pe : option nat) : table :=
  let '(t, pe) :=
    if Nat.leb (length (lists t) * 3) (entry_num t) then (expand t, None) else (t, pe) in
  match pe with
  | Some b => mkT (upd (lists t) b (chain t b ++ [k])) (S (entry_num t))
  | None => mkT (upd (lists t) (bucket t k) (k :: chain t (bucket t k))) (S (entry_num t))
  end.

(** The questions to the objects (numbered), and the answers. *)
Inductive query := QKeys (o : Z) | QDesc (o : Z) (s : list Z) | QProto (o : Z).
Inductive answer :=
| Keys (ks : list key)
| Desc (d : option bool)   (* no property, or whether it is enumerable *)
| Proto (p : option Z)
| Err.

(** RJS_ForInIterator *)
Record iter := mkI { v : option Z; visited : bool; keys : list key; tbl : table }.

(** rjs_for_in_iterator_new, lines 110-145 *)
Definition new (o : option Z) : iter :=
  match o with
  | None => mkI None true [] t_init
  | Some o => mkI (Some o) false [] t_init
  end.

(** A call ends with a name, with done, with an exception; [Wait] means that
    the list of answers is used up or that the next one does not fit. *)
Inductive out := Yield (s : list Z) | Done | Threw | Wait | Fuel.

(** The loop over the keys, lines 172-210: [inl] a name was found, [inr] the
    loop ended. *)
Inductive scanned :=
| Found (s : list Z) (ks : list key) (t : table) (a : list answer) (q : list query)
| Fell (ks : list key) (t : table) (a : list answer) (q : list query)
| Stop (o : out) (q : list query).

Fixpoint scan (o : Z) (ks : list key) (t : table) (a : list answer) (q : list query) : scanned :=
  match ks with
  | [] => Fell [] t a q
  | Sym _ :: _ => Fell ks t a q
  | k :: r =>
      let '(f, t, k, pe) := lookup t k in
      if f then scan o r t a q
      else
        let q := q ++ [QDesc o (name k)] in
        match a with
        | Err :: _ => Stop Threw q
        | Desc None :: a => scan o r t a q
        | Desc (Some e) :: a =>
            let t := insert t k pe in
            if e then Found (name k) (k :: r) t a q else scan o r t a q
        | _ => Stop Wait q
        end
  end.

(** for_in_iterator_proto_next, lines 147-225 *)
Fixpoint next (fuel : nat) (i : iter) (a : list answer) (q : list query)
  : out * iter * list answer * list query :=
  match fuel with
  | O => (Fuel, i, a, q)
  | S fuel =>
      match v i with
      | None => (Done, i, a, q)
      | Some o =>
          let go (ks : list key) a q :=
            match scan o ks (tbl i) a q with
            | Stop w q => (w, i, a, q)
            | Found s ks t a q => (Yield s, mkI (Some o) true ks t, a, q)
            | Fell ks t a q =>
                match a with
                | Proto p :: a => next fuel (mkI p false ks t) a (q ++ [QProto o])
                | Err :: _ => (Threw, i, a, q ++ [QProto o])
                | _ => (Wait, i, a, q ++ [QProto o])
                end
            end in
          if visited i then go (keys i) a q
          else
            match a with
            | Keys ks :: a => go ks a (q ++ [QKeys o])
            | Err :: _ => (Threw, i, a, q ++ [QKeys o])
            | _ => (Wait, i, a, q ++ [QKeys o])
            end
      end
  end.

(** The statement calls next until it is done (rjs_native_stack.c:205-235); the names in
    order, how the loop ended and the questions. *)
Fixpoint run (fuel : nat) (i : iter) (a : list answer) (q : list query)
  : list (list Z) * out * list query :=
  match fuel with
  | O => ([], Fuel, q)
  | S fuel' =>
      match next fuel i a q with
      | (Yield s, i, a, q) =>
          let '(l, o, q) := run fuel' i a q in (s :: l, o, q)
      | (o, _, _, q) => ([], o, q)
      end
  end.

Definition for_in (o : option Z) (a : list answer) : list (list Z) * out * list query :=
  run (S (length a)) (new o) a [].
