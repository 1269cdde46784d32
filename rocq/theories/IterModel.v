(** Model of the iterator protocol and of the functions that consume iterators.

    Source: /repo/src/lib/rjs_iterator.c lines 104-161 and 174-306 (synchronous
    iterators), the constructors of sets and maps in rjs_hash_object_inc.c lines
    163-308, rjs_add_entries_from_iterable in rjs_operation.c lines 2219-2270,
    rjs_create_array_from_iterable there 812-847, Array.from and Array.of in
    rjs_array_object_inc.c lines 93-275, the iterator states of array patterns in
    rjs_native_stack.c lines 293-330 and 437-480, and the array iterator in
    rjs_array_object_inc.c lines 665-684 and 3315-3400.

    As in MethModel everything user code can do is an operation of a world with an
    arbitrary state.

    Simplifications.  The error register of the runtime is the thrown value; an
    operation that throws leaves the flag of the register set (the cases where it
    does not are those of C92 to C94).  Asynchronous iterators are not modelled.
    ToObject of a value that has passed GetMethod cannot fail and is a pure
    function.  Loops over iterators have fuel; running out of it is the outcome
    [Deep]. *)
From Coq Require Import List ZArith Bool.
From Verif Require Import MethModel.
Import ListNotations.
Local Open Scope Z_scope.

Inductive meth := MIterator | MReturn.
Inductive ikey := KNext | KDone | KValue | KAdd | KSet | KAt (i : Z).

Record iworld := mkI {
  IW : Type;
  i_method : val -> meth -> M IW val;      (* GetMethod: Undef if there is none *)
  i_get : val -> ikey -> M IW val;
  i_call : val -> val -> list val -> M IW val;
  i_construct : val -> list val -> M IW val;
  i_array : Z -> M IW val;                 (* rjs_array_new without a prototype *)
  i_hash : val -> M IW val;                (* hash_new for a new target *)
  i_create : val -> Z -> val -> M IW unit; (* rjs_create_data_property_or_throw_index *)
  i_set_len : val -> Z -> M IW unit;
  i_len : val -> M IW Z;
  i_entry : val -> val -> val -> M IW unit; (* the function of AddEntriesFromIterable *)
  i_object : val -> val;
  i_truthy : val -> bool;
  i_callable : val -> bool;
  i_ctor : val -> bool
}.

(** [m], and [h] if it throws *)
Definition on_err {W A} (m : M W A) (h : exn -> M W A) : M W A :=
  fun w => match m w with (w, Throw e) => h e w | x => x end.

Section S.
Variable w : iworld.
Notation M := (M (IW w)).

(** an iterator record: iterator->iterator, iterator->next_method *)
Definition iter := (val * val)%type.

(** rjs_call tests for a function first *)
Definition call_method (f this : val) : M val :=
  if i_callable w f then i_call w f this [] else throw TypeError.

(** rjs_get_iterator with a method, lines 143-155 *)
Definition get_iterator_of (method obj : val) : M iter :=
  it <- call_method method obj ;;
  if is_object it then nm <- i_get w it KNext ;; ret (it, nm) else throw TypeError.
(** rjs_get_iterator without one, lines 137-141 *)
Definition get_iterator (obj : val) : M iter :=
  m <- i_method w obj MIterator ;; get_iterator_of m obj.

(** rjs_iterator_next, lines 174-193 *)
Definition iterator_next (i : iter) : M val :=
  r <- call_method (snd i) (fst i) ;; if is_object r then ret r else throw TypeError.
(** rjs_iterator_complete, lines 202-216 *)
Definition iterator_complete (r : val) : M bool := d <- i_get w r KDone ;; ret (i_truthy w d).
(** rjs_iterator_value, lines 227-231 *)
Definition iterator_value (r : val) : M val := i_get w r KValue.
(** rjs_iterator_step, lines 242-257: None for RJS_FALSE *)
Definition iterator_step (i : iter) : M (option val) :=
  r <- iterator_next i ;; d <- iterator_complete r ;; ret (if d then None else Some r).
(** rjs_iterator_close, lines 266-306, while an error is set: the caller keeps its
    result RJS_ERR and the error is restored *)
Definition iterator_close {A} (i : iter) (e : exn) : M A :=
  on_err (m <- i_method w (fst i) MReturn ;;
          if is_undef m then throw e
          else r <- call_method m (fst i) ;; throw (if is_object r then e else TypeError))
         (fun _ => throw e).

(** the loops of the consumers: [body] gets each value *)
Fixpoint drain {S} (fuel : nat) (i : iter) (body : S -> val -> M S) (s : S) : M S :=
  match fuel with
  | O => deep
  | Datatypes.S fuel =>
      r <- iterator_step i ;;
      match r with
      | None => ret s
      | Some r => v <- iterator_value r ;; s <- body s v ;; drain fuel i body s
      end
  end.

(** set_new, lines 165-225 *)
Definition set_new (fuel : nat) (nt iterable : val) : M val :=
  if is_undef nt then throw TypeError
  else
    rv <- i_hash w nt ;;
    if is_undef iterable || is_null iterable then ret rv
    else
      adder <- i_get w rv KAdd ;;
      if i_callable w adder then
        i <- get_iterator iterable ;;
        on_err (drain fuel i (fun _ v => i_call w adder rv [v] ;;; ret tt) tt) (iterator_close i) ;;;
        ret rv
      else throw TypeError.

(** the entry of an iterator of pairs, lines 283-293; rjs_operation.c:2247-2259 *)
Definition pair_of (item : val) : M (val * val) :=
  if is_object item then
    k <- i_get w item (KAt 0) ;; v <- i_get w item (KAt 1) ;; ret (k, v)
  else throw TypeError.
(** map_new, lines 230-306 *)
Definition map_new (fuel : nat) (nt iterable : val) : M val :=
  if is_undef nt then throw TypeError
  else
    rv <- i_hash w nt ;;
    if is_undef iterable || is_null iterable then ret rv
    else
      adder <- i_get w rv KSet ;;
      if i_callable w adder then
        i <- get_iterator iterable ;;
        on_err (drain fuel i (fun _ item => p <- pair_of item ;; i_call w adder rv [fst p; snd p] ;;; ret tt) tt)
               (iterator_close i) ;;;
        ret rv
      else throw TypeError.
(** rjs_add_entries_from_iterable, lines 2219-2270 *)
Definition add_entries (fuel : nat) (target iterable : val) : M unit :=
  i <- get_iterator iterable ;;
  on_err (drain fuel i (fun _ item => p <- pair_of item ;; i_entry w target (fst p) (snd p)) tt) (iterator_close i).

(** rjs_create_array_from_iterable, rjs_operation.c lines 812-847: the result of the
    creation of an element is not looked at *)
Definition ignore (m : M unit) : M unit := on_err m (fun _ => ret tt).
Definition array_from_iterable (fuel : nat) (iterable : val) : M val :=
  a <- i_array w 0 ;;
  i <- get_iterator iterable ;;
  drain fuel i (fun k v => ignore (i_create w a k v) ;;; ret (k + 1)) 0 ;;;
  ret a.

(** the value an element is mapped to, lines 160-168 and 194-202 *)
Definition mapped (map_fn this_arg v : val) (k : Z) : M val :=
  if is_undef map_fn then ret v else i_call w map_fn this_arg [v; Num k].
(** the loop of Array.from over an iterator, lines 140-176 *)
Fixpoint from_loop (fuel : nat) (i : iter) (map_fn this_arg rv : val) (k : Z) : M unit :=
  match fuel with
  | O => deep
  | Datatypes.S fuel =>
      if max_int <? k then throw TypeError
      else
        r <- iterator_step i ;;
        match r with
        | None => i_set_len w rv k
        | Some r =>
            v <- iterator_value r ;;
            m <- mapped map_fn this_arg v k ;;
            i_create w rv k m ;;;
            from_loop fuel i map_fn this_arg rv (k + 1)
        end
  end.
(** the loop over an array-like object, lines 190-207 *)
Fixpoint like_loop (n : nat) (o map_fn this_arg rv : val) (k : Z) : M unit :=
  match n with
  | O => ret tt
  | Datatypes.S n =>
      v <- i_get w o (KAt k) ;;
      m <- mapped map_fn this_arg v k ;;
      i_create w rv k m ;;;
      like_loop n o map_fn this_arg rv (k + 1)
  end.
(** Array.from, lines 93-225 *)
Definition array_from (fuel : nat) (this items map_fn this_arg : val) : M val :=
  if negb (is_undef map_fn) && negb (i_callable w map_fn) then throw TypeError
  else
    method <- i_method w items MIterator ;;
    if negb (is_undef method) then
      rv <- (if i_ctor w this then i_construct w this [] else i_array w 0) ;;
      i <- get_iterator_of method items ;;
      on_err (from_loop fuel i map_fn this_arg rv 0) (iterator_close i) ;;;
      ret rv
    else
      let o := i_object w items in
      len <- i_len w o ;;
      rv <- (if i_ctor w this then i_construct w this [Num len] else i_array w len) ;;
      like_loop (Z.to_nat len) o map_fn this_arg rv 0 ;;;
      i_set_len w rv len ;;;
      ret rv.

(** Array.of, lines 240-275 *)
Fixpoint of_loop (rv : val) (k : Z) (args : list val) : M unit :=
  match args with [] => ret tt | a :: args => i_create w rv k a ;;; of_loop rv (k + 1) args end.
Definition array_of (this : val) (args : list val) : M val :=
  let len := Z.of_nat (length args) in
  rv <- (if i_ctor w this then i_construct w this [Num len] else i_array w len) ;;
  of_loop rv 0 args ;;; i_set_len w rv len ;;; ret rv.

(** *** Array patterns: a record with the field [done] *)
Definition P (A : Type) := IW w -> IW w * (bool * out A).
(** rjs_iter_state_step, rjs_native_stack.c lines 293-330: the value of the next
    element, undefined after the end *)
Definition state_step (i : iter) (done : bool) : P val :=
  fun s =>
    if done then (s, (true, Ok Undef))
    else match iterator_step i s with
         | (s, Ok (Some r)) =>
             match iterator_value r s with
             | (s, Ok v) => (s, (false, Ok v))
             | (s, Throw e) => (s, (true, Throw e))
             | (s, Bad) => (s, (done, Bad))
             | (s, Deep) => (s, (done, Deep))
             end
         | (s, Ok None) => (s, (true, Ok Undef))
         | (s, Throw e) => (s, (true, Throw e))
         | (s, Bad) => (s, (done, Bad))
         | (s, Deep) => (s, (done, Deep))
         end.
(** rjs_iter_state_rest, lines 437-480 *)
Fixpoint rest_loop (fuel : nat) (i : iter) (a : val) (k : Z) (done : bool) : P unit :=
  fun s =>
    match fuel with
    | O => (s, (done, Deep))
    | Datatypes.S fuel =>
        if done then (s, (done, Ok tt))
        else match iterator_step i s with
             | (s, Ok (Some r)) =>
                 match (v <- iterator_value r ;; i_create w a k v) s with
                 | (s, Ok _) => rest_loop fuel i a (k + 1) done s
                 | (s, Throw e) => (s, (done, Throw e))
                 | (s, Bad) => (s, (done, Bad))
                 | (s, Deep) => (s, (done, Deep))
                 end
             | (s, Ok None) => (s, (true, Ok tt))
             | (s, Throw e) => (s, (true, Throw e))
             | (s, Bad) => (s, (done, Bad))
             | (s, Deep) => (s, (done, Deep))
             end
    end.
Definition state_rest (fuel : nat) (i : iter) (done : bool) : P val :=
  fun s =>
    match i_array w 0 s with
    | (s, Ok a) =>
        match rest_loop fuel i a 0 done s with
        | (s, (d, Ok _)) => (s, (d, Ok a))
        | (s, (d, Throw e)) => (s, (d, Throw e))
        | (s, (d, Bad)) => (s, (d, Bad))
        | (s, (d, Deep)) => (s, (d, Deep))
        end
    | (s, Throw e) => (s, (done, Throw e))
    | (s, Bad) => (s, (done, Bad))
    | (s, Deep) => (s, (done, Deep))
    end.
(** rjs_state_deinit, lines 93-127, when the pattern is left by an error: the
    iterator is closed unless it is done *)
Definition state_leave {A} (i : iter) (r : bool * out A) : M A :=
  match r with
  | (d, Ok a) => ret a
  | (d, Throw e) => if d then throw e else iterator_close i e
  | (d, Bad) => bad
  | (d, Deep) => deep
  end.

(** *** Array iterators: the field [curr] of the iterator is the state *)
Inductive akind := AKey | AValue | APair.
Inductive item := IKey (k : Z) | IValue (v : val) | IPair (k : Z) (v : val).
(** the array: [typed o] gives a typed array's length, None if detached *)
Variable typed : val -> option (M (option Z)).
(** ArrayIteratorPrototype_next, rjs_array_object_inc.c lines 3315-3400; a result
    of [None] is the end *)
Definition next_len (o : val) : M Z :=
  match typed o with
  | Some m => l <- m ;; match l with Some n => ret n | None => throw TypeError end
  | None => i_len w o
  end.
Definition array_next (o : val) (kind : akind) (curr : Z) : IW w -> IW w * (Z * out (option item)) :=
  fun s =>
    match (len <- next_len o ;;
           if len <=? curr then ret None
           else match kind with
                | AKey => ret (Some (IKey curr))
                | AValue => v <- i_get w o (KAt curr) ;; ret (Some (IValue v))
                | APair => v <- i_get w o (KAt curr) ;; ret (Some (IPair curr v))
                end) s with
    | (s, Ok r) => (s, (curr + 1, Ok r))
    | (s, x) => (s, (curr, x))
    end.
(** [n] calls of next; other code may run between them: [env k] is what it does to
    the state after call [k] *)
Fixpoint array_run (env : nat -> IW w -> IW w) (n : nat) (o : val) (kind : akind) (curr : Z) (s : IW w)
    : list (out (option item)) :=
  match n with
  | O => []
  | Datatypes.S n =>
      match array_next o kind curr s with
      | (s, (curr, r)) => r :: array_run env n o kind curr (env n s)
      end
  end.
End S.
