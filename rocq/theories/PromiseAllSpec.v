(** What Promise.all, Promise.allSettled and Promise.any have to pass on (C63),
    stated on the sequence of actions alone. *)
From Coq Require Import List ZArith Bool Arith.
Import ListNotations.
From Verif Require Import PromiseModel PromiseAllModel.

(** The number of elements taken. *)
Fixpoint elems (l : list act) : nat :=
  match l with [] => 0 | AElem :: t => S (elems t) | _ :: t => elems t end.

(** The first call of a function of element [i]. *)
Fixpoint first (i : nat) (l : list act) : option (tag * val) :=
  match l with
  | [] => None
  | ACall j t x :: r => if j =? i then Some (t, x) else first i r
  | _ :: r => first i r
  end.

Definition ended (l : list act) : bool :=
  existsb (fun a => match a with AEnd => true | _ => false end) l.

Definition entry_of (k : kind) (c : tag * val) : entry :=
  match k with Settled => EStatus (fst c) (snd c) | _ => EPlain (snd c) end.

(** The array of the first calls of elements 0..n-1, if all were called. *)
Fixpoint gathered (k : kind) (l : list act) (n : nat) : option (list entry) :=
  match n with
  | O => Some []
  | S m =>
    match gathered k l m, first m l with
    | Some es, Some c => Some (es ++ [entry_of k c])
    | _, _ => None
    end
  end.

(** The calls of capability functions due after the actions [l]: one when the
    loop has ended and every element was called, none before. *)
Definition expected (k : kind) (l : list act) : list output :=
  if ended l then
    match gathered k l (elems l) with
    | Some es => [match k with Any => OReject es | _ => OResolve es end]
    | None => []
    end
  else [].

(** No element has both its functions called. *)
Definition one_sided (l : list act) : Prop :=
  forall i x y, In (ACall i Ful x) l -> In (ACall i Rej y) l -> False.
