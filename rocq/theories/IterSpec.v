(** The consumers of iterators as ECMA-262 (2023) gives them, over the same worlds:
    7.4 (iterators), 24.1.1.1, 24.1.1.2, 24.2.1.1, 23.1.2.1, 23.1.2.3, 8.6.2, 23.1.5.

    [broken] is what happens when the iterator itself fails, that is when next, done
    or value throws.  The standard just throws ([throw]) since a failed iterator
    needs no return. *)
From Coq Require Import List ZArith Bool.
From Verif Require Import MethModel IterModel.
Import ListNotations.
Local Open Scope Z_scope.

(** the outcome of [m] as a value *)
Inductive completion (A : Type) := Normal (a : A) | Abrupt (e : exn).
Arguments Normal {A}. Arguments Abrupt {A}.
Definition completion_of {W A} (m : M W A) : M W (completion A) :=
  fun s => match m s with
           | (s, Ok a) => (s, Ok (Normal a))
           | (s, Throw e) => (s, Ok (Abrupt e))
           | (s, Bad) => (s, Bad)
           | (s, Deep) => (s, Deep)
           end.

Section S.
Variable w : iworld.
Notation M := (M (IW w)).

(** 7.3.14 Call *)
Definition s_call0 (f this : val) : M val := if i_callable w f then i_call w f this [] else throw TypeError.
(** 7.4.2 and 7.4.3 *)
Definition s_open (method obj : val) : M (val * val) :=
  it <- s_call0 method obj ;;
  match it with Ref _ => nm <- i_get w it KNext ;; ret (it, nm) | _ => throw TypeError end.
Definition s_iterator (obj : val) : M (val * val) :=
  m <- i_method w obj MIterator ;; s_open m obj.
(** 7.4.4 to 7.4.7 in one: the next value, None at the end *)
Definition s_next_value (i : val * val) : M (option val) :=
  r <- s_call0 (snd i) (fst i) ;;
  match r with
  | Ref _ => d <- i_get w r KDone ;; if i_truthy w d then ret None else v <- i_get w r KValue ;; ret (Some v)
  | _ => throw TypeError
  end.
(** 7.4.8 IteratorClose with a throw completion *)
Definition s_close (i : val * val) (e : exn) {A} : M A :=
  m <- completion_of (i_method w (fst i) MReturn) ;;
  match m with
  | Normal Undef | Abrupt _ => throw e
  | Normal f => completion_of (s_call0 f (fst i)) ;;; throw e
  end.
(** IfAbruptCloseIterator *)
Definition or_close {A} (i : val * val) (m : M A) : M A :=
  c <- completion_of m ;; match c with Normal a => ret a | Abrupt e => s_close i e end.

Variable broken : forall A, val * val -> exn -> M A.
Definition fetch (i : val * val) : M (option val) :=
  c <- completion_of (s_next_value i) ;;
  match c with Normal r => ret r | Abrupt e => broken (option val) i e end.
(** each value of the iterator goes through [f] *)
Fixpoint for_each {S} (fuel : nat) (i : val * val) (f : S -> val -> M S) (s : S) : M S :=
  match fuel with
  | O => deep
  | Datatypes.S fuel =>
      r <- fetch i ;;
      match r with None => ret s | Some v => s <- or_close i (f s v) ;; for_each fuel i f s end
  end.

(** 24.1.1.2 AddEntriesFromIterable *)
Definition entry_of (v : val) : M (val * val) :=
  match v with
  | Ref _ => k <- i_get w v (KAt 0) ;; x <- i_get w v (KAt 1) ;; ret (k, x)
  | _ => throw TypeError
  end.
Definition s_add_entries (fuel : nat) (iterable : val) (add : val -> val -> M unit) : M unit :=
  i <- s_iterator iterable ;;
  for_each fuel i (fun _ v => p <- entry_of v ;; add (fst p) (snd p)) tt.
(** 24.1.1.1 and 24.2.1.1 *)
Definition s_make (fuel : nat) (nt iterable : val) (adder : ikey)
    (fill : nat -> val -> (val -> M unit) -> (val -> val -> M unit) -> M unit) : M val :=
  match nt with
  | Undef => throw TypeError
  | _ =>
      o <- i_hash w nt ;;
      match iterable with
      | Undef | Null => ret o
      | _ =>
          f <- i_get w o adder ;;
          if i_callable w f then
            fill fuel iterable (fun v => i_call w f o [v] ;;; ret tt) (fun k v => i_call w f o [k; v] ;;; ret tt) ;;;
            ret o
          else throw TypeError
      end
  end.
Definition s_set (fuel : nat) (nt iterable : val) : M val :=
  s_make fuel nt iterable KAdd (fun fuel it add _ => i <- s_iterator it ;; for_each fuel i (fun _ v => add v) tt).
Definition s_map (fuel : nat) (nt iterable : val) : M val :=
  s_make fuel nt iterable KSet (fun fuel it _ add => s_add_entries fuel it add).

(** 23.1.2.1 Array.from; [last] is what happens when the length cannot be set after
    the end of the iterator (in the standard: throw) *)
Variable last : forall A, val * val -> exn -> M A.
Definition s_map_value (f t v : val) (k : Z) : M val :=
  match f with Undef => ret v | _ => i_call w f t [v; Num k] end.
Fixpoint s_from_iter (fuel : nat) (i : val * val) (f t a : val) (k : Z) : M unit :=
  match fuel with
  | O => deep
  | Datatypes.S fuel =>
      if 2 ^ 53 - 1 <=? k then s_close i TypeError
      else
        r <- fetch i ;;
        match r with
        | None => c <- completion_of (i_set_len w a k) ;;
                  match c with Normal x => ret x | Abrupt e => last unit i e end
        | Some v =>
            or_close i (x <- s_map_value f t v k ;; i_create w a k x) ;;;
            s_from_iter fuel i f t a (k + 1)
        end
  end.
Fixpoint s_from_like (ks : list Z) (o f t a : val) : M unit :=
  match ks with
  | [] => ret tt
  | k :: ks => v <- i_get w o (KAt k) ;; x <- s_map_value f t v k ;; i_create w a k x ;;; s_from_like ks o f t a
  end.
(** 0, 1, ..., n-1 *)
Definition indices (n : Z) : list Z := map Z.of_nat (seq 0 (Z.to_nat n)).
Definition make_array (c : val) (args : list val) (n : Z) : M val :=
  if i_ctor w c then i_construct w c args else i_array w n.
Definition s_from (fuel : nat) (this items f t : val) : M val :=
  if match f with Undef => true | _ => i_callable w f end then
    m <- i_method w items MIterator ;;
    match m with
    | Undef =>
        len <- i_len w (i_object w items) ;;
        a <- make_array this [Num len] len ;;
        s_from_like (indices len) (i_object w items) f t a ;;;
        i_set_len w a len ;;; ret a
    | _ =>
        a <- make_array this [] 0 ;;
        i <- s_open m items ;;
        s_from_iter fuel i f t a 0 ;;; ret a
    end
  else throw TypeError.
End S.

(** what the standard does *)
Definition just_throw (w : iworld) (A : Type) (i : val * val) (e : exn) : M (IW w) A := throw e.
(** the iterator is closed although it failed or ended *)
Definition closes (w : iworld) (A : Type) (i : val * val) (e : exn) : M (IW w) A := s_close w i e.

(** An iterator that does not fail by itself, and an object all whose iterators are
    such. *)
Definition sound_iter (w : iworld) (i : val * val) : Prop :=
  forall s s' e, s_next_value w i s <> (s', Throw e).
Definition sound_iterators (w : iworld) (obj : val) : Prop :=
  forall method s s' i, s_open w method obj s = (s', Ok i) -> sound_iter w i.
Definition lengths_settable (w : iworld) : Prop :=
  forall a k s s' e, i_set_len w a k s <> (s', Throw e).

(** 23.1.2.3 Array.of *)
Definition s_of (w : iworld) (this : val) (args : list val) : M (IW w) val :=
  let n := Z.of_nat (length args) in
  a <- make_array w this [Num n] n ;;
  (fix all (l : list (Z * val)) : M (IW w) unit :=
     match l with [] => ret tt | (k, v) :: l => i_create w a k v ;;; all l end)
    (combine (indices n) args) ;;;
  i_set_len w a n ;;; ret a.

(** 7.4.13 IterableToList, as an array *)
Fixpoint s_list_loop (w : iworld) (fuel : nat) (i : val * val) (a : val) (k : Z) : M (IW w) val :=
  match fuel with
  | O => deep
  | Datatypes.S fuel =>
      r <- s_next_value w i ;;
      match r with None => ret a | Some v => i_create w a k v ;;; s_list_loop w fuel i a (k + 1) end
  end.
Definition s_list (w : iworld) (fuel : nat) (iterable : val) : M (IW w) val :=
  a <- i_array w 0 ;; i <- s_iterator w iterable ;; s_list_loop w fuel i a 0.

(** *** 8.6.2: one element of an array pattern and the rest of it.  The record's
    [[Done]] becomes true when the iterator ends or fails. *)
Definition fails {A} (r : out A) : bool := match r with Throw _ => true | _ => false end.
Definition s_element (w : iworld) (i : val * val) (done : bool) (s : IW w) : IW w * (bool * out val) :=
  if done then (s, (true, Ok Undef))
  else let (s, r) := s_next_value w i s in
       match r with
       | Ok (Some v) => (s, (false, Ok v))
       | Ok None => (s, (true, Ok Undef))
       | Throw e => (s, (true, Throw e))
       | Bad => (s, (false, Bad))
       | Deep => (s, (false, Deep))
       end.
(** all remaining values; nothing can go wrong but the iterator *)
Fixpoint s_rest (w : iworld) (fuel : nat) (i : val * val) (a : val) (k : Z) (done : bool) (s : IW w)
    : IW w * (bool * out val) :=
  match fuel with
  | O => (s, (done, Deep))
  | Datatypes.S fuel =>
      if done then (s, (true, Ok a))
      else let (s, r) := s_next_value w i s in
           match r with
           | Ok (Some v) =>
               let (s, _) := i_create w a k v s in s_rest w fuel i a (k + 1) false s
           | Ok None => (s, (true, Ok a))
           | Throw e => (s, (true, Throw e))
           | Bad => (s, (false, Bad))
           | Deep => (s, (false, Deep))
           end
  end.
(** reading [value] of a result never throws *)
Definition values_readable (w : iworld) : Prop :=
  forall r s s' e, i_get w r KValue s <> (s', Throw e).
(** new arrays can be made and take new elements *)
Definition arrays_work (w : iworld) : Prop :=
  (forall n s, exists s' a, i_array w n s = (s', Ok a)) /\
  (forall a k v s, exists s', i_create w a k v s = (s', Ok tt)).

(** *** 23.1.5.1: an array iterator is a closure that ends for good *)
Inductive aiter := At (i : Z) | Over.
Definition s_anext (w : iworld) (typed : val -> option (M (IW w) (option Z))) (o : val) (kind : akind) (a : aiter)
    (s : IW w) : IW w * (aiter * out (option item)) :=
  match a with
  | Over => (s, (Over, Ok None))
  | At i =>
      let (s, r) := (match typed o with
                     | Some m => x <- m ;; match x with Some n => ret n | None => throw TypeError end
                     | None => i_len w o
                     end) s in
      match r with
      | Ok n =>
          if n <=? i then (s, (Over, Ok None))
          else match kind with
               | AKey => (s, (At (i + 1), Ok (Some (IKey i))))
               | _ =>
                   let (s, r) := i_get w o (KAt i) s in
                   match r with
                   | Ok v => (s, (At (i + 1), Ok (Some (match kind with AValue => IValue v | _ => IPair i v end))))
                   | Throw e => (s, (Over, Throw e))
                   | Bad => (s, (Over, Bad))
                   | Deep => (s, (Over, Deep))
                   end
               end
      | Throw e => (s, (Over, Throw e))
      | Bad => (s, (Over, Bad))
      | Deep => (s, (Over, Deep))
      end
  end.
Fixpoint s_arun (w : iworld) typed (env : nat -> IW w -> IW w) (n : nat) (o : val) (kind : akind) (a : aiter)
    (s : IW w) : list (out (option item)) :=
  match n with
  | O => []
  | Datatypes.S n =>
      match s_anext w typed o kind a s with
      | (s, (a, r)) => r :: s_arun w typed env n o kind a (env n s)
      end
  end.
(** the results up to the end or the first error, inclusive *)
Fixpoint until_over (l : list (out (option item))) : list (out (option item)) :=
  match l with
  | [] => []
  | Ok (Some x) :: l => Ok (Some x) :: until_over l
  | x :: _ => [x]
  end.
