(** Model of the conversion of property names to property keys:
    src/lib/rjs_string.c:443-537 (intern table, index parsing), 886-950
    (comparison), 1379-1394 (printing an index), src/lib/include/rjs_string.h:67-80,
    src/lib/rjs_object.c:193-221.

    A string object lives at an address (a [nat]) and carries its characters
    and the flags RJS_STRING_FL_PROP_KEY and RJS_STRING_FL_NOT_INDEX.  The hash
    table str_prop_key_hash is the list of the interned addresses, searched
    with hash_op_string_equal; that the hash table finds exactly an equal key
    if there is one is property C11.  Addresses are never reused.
    Not modelled: symbols and private names (compared by address). *)
From Coq Require Import List ZArith Bool Lia.
Import ListNotations.
From Verif Require Import StrModel.
Local Open Scope Z_scope.

(** RJS_String, src/lib/include/rjs_internal.h *)
Record sobj := { chars : str; prop_key : bool; not_index : bool }.

(** A JavaScript string value: an index string (a uint32 in the value word,
    include/ratjs/rjs_value.h:313-319) or a pointer to a string object. *)
Inductive sval := VIdx (i : Z) | VStr (a : nat).

(** The state: heap (None = freed) and intern table. *)
Record state := { heap : list (option sobj); table : list nat }.

Definition get (st : state) (a : nat) : option sobj :=
  match nth_error (heap st) a with Some (Some o) => Some o | _ => None end.

Fixpoint upd {A} (l : list A) (i : nat) (x : A) : list A :=
  match l, i with
  | [], _ => []
  | _ :: t, O => x :: t
  | y :: t, S i' => y :: upd t i' x
  end.
Definition put (st : state) (a : nat) (o : sobj) : state :=
  {| heap := upd (heap st) a (Some o); table := table st |}.

(** White-space skipping loop of rjs_string_to_index_internal, rjs_string.c:497-503. *)
Fixpoint skip_ws (s : str) : str :=
  match s with
  | c :: t => if is_white_space c then skip_ws t else s
  | [] => []
  end.

(** Digit loop, rjs_string.c:512-524; None = the limit was exceeded. *)
Fixpoint read_digits (s : str) (n : Z) : option (Z * str) :=
  match s with
  | c :: t => if is_digit c
              then let n := n * 10 + (c - 48) in
                   if 0xfffffffe <? n then None else read_digits t n
              else Some (n, s)
  | [] => Some (n, [])
  end.

(** rjs_string_to_index_internal, rjs_string.c:482-537, without the flag.  The
    int64_t n stays below 10 * 0xffffffff: no overflow. *)
Definition parse_index (s : str) : option Z :=
  match skip_ws s with
  | [] => None
  | (c :: _) as s =>
      if negb (is_digit c) then None
      else match read_digits s 0 with
           | None => None
           | Some (n, rest) => match skip_ws rest with [] => Some n | _ => None end
           end
  end.

(** rjs_string_to_index, src/lib/include/rjs_string.h:66-80, on a string object:
    the index and the updated state; None = dangling pointer. *)
Definition to_index (st : state) (a : nat) : option (option Z * state) :=
  match get st a with
  | None => None
  | Some o =>
      if not_index o then Some (None, st)
      else match parse_index (chars o) with
           | Some n => Some (Some n, st)
           | None => Some (None, put st a {| chars := chars o; prop_key := prop_key o; not_index := true |})
           end
  end.

(** hash_op_string_equal, rjs_string.c:885-918 *)
Definition string_equal (st : state) (a b : nat) : bool :=
  if Nat.eqb a b then true
  else match get st a, get st b with
       | Some x, Some y =>
           if prop_key x && prop_key y then false else content_equal (chars x) (chars y)
       | _, _ => false
       end.

(** rjs_string_to_property_key, rjs_string.c:442-472: the key pointer stored
    back into the value, and the new state. *)
Definition to_property_key (st : state) (a : nat) : option (nat * state) :=
  match get st a with
  | None => None
  | Some o =>
      if prop_key o then Some (a, st)
      else match find (fun e => string_equal st a e) (table st) with
           | Some e => Some (e, st)
           | None =>
               let st' := put st a {| chars := chars o; prop_key := true; not_index := not_index o |} in
               Some (a, {| heap := heap st'; table := a :: table st' |})
           end
  end.

(** The resolved name: what prop_lookup compares (rjs_object.c:232-282). *)
Inductive key := KIndex (i : Z) | KStr (a : nat).

(** prop_resolve, rjs_object.c:193-216 *)
Definition resolve (st : state) (v : sval) : option (key * state) :=
  match v with
  | VIdx i => Some (KIndex i, st)
  | VStr a =>
      match to_index st a with
      | None => None
      | Some (Some n, st) => Some (KIndex n, st)
      | Some (None, st) =>
          match to_property_key st a with
          | None => None
          | Some (a', st) => Some (KStr a', st)
          end
      end
  end.

(** snprintf "%u" of rjs_index_string_normalize, rjs_string.c:1378-1394 *)
Fixpoint decimal_loop (fuel : nat) (n : Z) (acc : str) : str :=
  match fuel with
  | O => acc
  | S f => let acc := (48 + n mod 10) :: acc in
           if n / 10 =? 0 then acc else decimal_loop f (n / 10) acc
  end.
Definition decimal (n : Z) : str := decimal_loop 10 n [].

(** string_new + rjs_string_from_uchars, rjs_string.c:70-88, 228-257 *)
Definition new_string (st : state) (s : str) : state :=
  {| heap := heap st ++ [Some {| chars := s; prop_key := false; not_index := false |}];
     table := table st |}.

(** string_op_gc_free, rjs_string.c:30-54 *)
Definition free_string (st : state) (a : nat) : state :=
  {| heap := upd (heap st) a None; table := filter (fun e => negb (Nat.eqb e a)) (table st) |}.

(** A run of the engine as far as keys are concerned: strings are made, names
    are resolved, unreferenced strings are freed.  [out] records each resolved
    key with the text of the name.  The collector frees no string that a
    recorded key still refers to (property C14). *)
Inductive op := ONew (s : str) | OResolve (v : sval) | OFree (a : nat).

(** The text of a value. *)
Definition text (st : state) (v : sval) : option str :=
  match v with
  | VIdx i => if (0 <=? i) && (i <? 0xffffffff) then Some (decimal i) else None
  | VStr a => match get st a with Some o => Some (chars o) | None => None end
  end.

Definition held (out : list (key * str)) (a : nat) : bool :=
  existsb (fun p => match fst p with KStr b => Nat.eqb a b | _ => false end) out.

Definition step (p : state * list (key * str)) (o : op) : state * list (key * str) :=
  let '(st, out) := p in
  match o with
  | ONew s => (new_string st s, out)
  | OResolve v => match text st v, resolve st v with
                  | Some t, Some (k, st') => (st', (k, t) :: out)
                  | _, _ => (st, out)
                  end
  | OFree a => if held out a then (st, out) else (free_string st a, out)
  end.
Definition init : state := {| heap := []; table := [] |}.
Definition run (ops : list op) : state * list (key * str) := fold_left step ops (init, []).
