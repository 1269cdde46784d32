(** Model of the counting of Promise.all, Promise.allSettled and Promise.any:
    src/lib/rjs_promise_object_inc.c:75-708.

    One call of one of the three functions.  The iterated object, the resolve
    function of the constructor and the "then" methods are the script: between
    the atomic pieces of the loop the script may call any element function it
    was given, any number of times.  [left] is a size_t.
    The values array is the list of its elements; rjs_set_index on it is taken
    as the plain store it is when Array.prototype has no setters for indices.
    Not modelled: closing the iterator, the promise capability (C18). *)
From Coq Require Import List ZArith Bool Arith.
Import ListNotations.
From Verif Require Import PromiseModel.
Local Open Scope Z_scope.

Inductive kind := All | Settled | Any.

(** Which function of an element: the one given to "then" for fulfillment or
    the one for rejection. *)
Inductive tag := Ful | Rej.

(** Elements of the values array: undefined, the plain value, or the object
    {status, value/reason} of allSettled (lines 353-356, 394-397). *)
Inductive entry := EUndef | EPlain (v : val) | EStatus (t : tag) (v : val).

(** Calls of the functions of the capability: resolve with the array, or reject
    with an AggregateError of the array. *)
Inductive output := OResolve (l : list entry) | OReject (l : list entry).

(** RJS_PromiseAll and the RJS_PromiseSingle records (lines 77-93): per element
    the flags [called] of its fulfillment and of its rejection function. *)
Inductive phase := Looping | Ended | Aborted.
Record comb := Comb {
  left : Z; values : list entry; singles : list (bool * bool);
  ph : phase; outs : list output }.

Definition size_t (z : Z) : Z := z mod 2 ^ 64.

(** promise_all_new with left = 1, lines 121-141, 247, 439, 593 *)
Definition start : comb := Comb 1 [] [] Looping [].

Definition set_value (c : comb) (i : nat) (e : entry) : comb :=
  Comb (left c) (upd (values c) i e) (singles c) (ph c) (outs c).
Definition set_single (c : comb) (i : nat) (b : bool * bool) : comb :=
  Comb (left c) (values c) (upd (singles c) i b) (ph c) (outs c).
Definition dec_left (c : comb) : comb :=
  Comb (size_t (left c - 1)) (values c) (singles c) (ph c) (outs c).
Definition inc_left (c : comb) : comb :=
  Comb (size_t (left c + 1)) (values c) (singles c) (ph c) (outs c).
Definition output_call (c : comb) (o : output) : comb :=
  Comb (left c) (values c) (singles c) (ph c) (outs c ++ [o]).

(** promise_all_resolve, lines 182-207 *)
Definition promise_all_resolve (c : comb) (i : nat) (x : val) (s : bool * bool) : comb :=
  if fst s then c
  else
    let c := set_single c i (true, snd s) in
    let c := dec_left c in
    let c := set_value c i (EPlain x) in
    if left c =? 0 then output_call c (OResolve (values c)) else c.

(** promise_all_settled_resolve, lines 335-374 *)
Definition promise_all_settled_resolve (c : comb) (i : nat) (x : val) (s : bool * bool) : comb :=
  if fst s then c
  else
    let c := set_single c i (true, snd s) in
    let c := set_value c i (EStatus Ful x) in
    let c := dec_left c in
    if left c =? 0 then output_call c (OResolve (values c)) else c.

(** promise_all_settled_reject, lines 377-421: its record is not that of the
    fulfillment function (promise_all_func_new is called twice, 467-471). *)
Definition promise_all_settled_reject (c : comb) (i : nat) (x : val) (s : bool * bool) : comb :=
  if snd s then c
  else
    let c := set_single c i (fst s, true) in
    let c := set_value c i (EStatus Rej x) in
    let c := dec_left c in
    if left c =? 0 then output_call c (OResolve (values c)) else c.

(** promise_any_reject, lines 534-570 *)
Definition promise_any_reject (c : comb) (i : nat) (x : val) (s : bool * bool) : comb :=
  if snd s then c
  else
    let c := set_single c i (fst s, true) in
    let c := set_value c i (EPlain x) in
    let c := dec_left c in
    if left c =? 0 then output_call c (OReject (values c)) else c.

(** The loop of perform_promise_all (228-300), perform_promise_all_settled
    (424-494) and perform_promise_any (573-647): the store of undefined, then
    (after the call of the constructor's resolve) the making of the element
    functions and the increment, then the end. *)
Definition loop_slot (c : comb) : comb :=
  Comb (left c) (values c ++ [EUndef]) (singles c) (ph c) (outs c).
Definition loop_elem (c : comb) : comb :=
  let c := inc_left c in
  Comb (left c) (values c) (singles c ++ [(false, false)]) (ph c) (outs c).
Definition loop_end (k : kind) (c : comb) : comb :=
  let c := Comb (left c) (values c) (singles c) Ended (outs c) in
  let c := dec_left c in
  if left c =? 0 then
    output_call c (match k with Any => OReject (values c) | _ => OResolve (values c) end)
  else c.

Inductive act :=
| ASlot | AElem | ACall (i : nat) (t : tag) (x : val) | AEnd | AAbort.

Definition cstep (k : kind) (c : comb) (a : act) : option comb :=
  match a with
  | ASlot =>
    match ph c with
    | Looping => if (length (values c) =? length (singles c))%nat then Some (loop_slot c) else None
    | _ => None
    end
  | AElem =>
    match ph c with
    | Looping => if (length (values c) =? S (length (singles c)))%nat then Some (loop_elem c) else None
    | _ => None
    end
  | ACall i t x =>
    match nth_error (singles c) i with
    | None => None
    | Some s =>
      match k, t with
      | All, Ful => Some (promise_all_resolve c i x s)
      | Settled, Ful => Some (promise_all_settled_resolve c i x s)
      | Settled, Rej => Some (promise_all_settled_reject c i x s)
      | Any, Rej => Some (promise_any_reject c i x s)
      | _, _ => None
      end
    end
  | AEnd =>
    match ph c with
    | Looping => if (length (values c) =? length (singles c))%nat then Some (loop_end k c) else None
    | _ => None
    end
  | AAbort =>
    match ph c with
    | Looping => Some (Comb (left c) (values c) (singles c) Aborted (outs c))
    | _ => None
    end
  end.

Fixpoint crun (k : kind) (c : comb) (l : list act) : option comb :=
  match l with
  | [] => Some c
  | a :: t => match cstep k c a with Some c => crun k c t | None => None end
  end.
