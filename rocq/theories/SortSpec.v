(** Specification vocabulary for sorting, independent of the model of the
    code: only the type of comparator answers is shared. *)
From Coq Require Import List ZArith.
Import ListNotations.
From Verif Require Import SortModel.

(** A comparator that answers by a fixed function of its arguments and never
    throws. *)
Definition pure_cmp {A W} (func : W -> A -> A -> option cmpres * W)
           (c : A -> A -> cmpres) : Prop :=
  forall w x y, func w x y = (Some (c x y), w).

(** [le] is the weak order (total preorder) induced by the comparator. *)
Record weak_order {A} (c : A -> A -> cmpres) (le : A -> A -> Prop) : Prop := {
  wo_le : forall x y, le x y <-> c x y <> CGreater;
  wo_total : forall x y, le x y \/ le y x;
  wo_trans : forall x y z, le x y -> le y z -> le x z
}.

(** Stability: for every "equivalence class" (a set of items pairwise equal
    for the order) the subsequence of items in the class is unchanged. *)
Definition stable_for {A} (le : A -> A -> Prop) (l l' : list A) : Prop :=
  forall (p : A -> bool),
    (forall x y, p x = true -> p y = true -> le x y) ->
    filter p l' = filter p l.

Section Slots.
  Variable V : Type.
  (** The defined values of an array, in index order. *)
  Fixpoint defined (slots : list (option (option V))) : list V :=
    match slots with
    | [] => []
    | Some (Some v) :: t => v :: defined t
    | _ :: t => defined t
    end.

  Definition undef_count (slots : list (option (option V))) : nat :=
    length (filter (fun s => match s with Some None => true | _ => false end) slots).
  Definition hole_count (slots : list (option (option V))) : nat :=
    length (filter (fun s => match s with None => true | _ => false end) slots).

End Slots.
Arguments defined {V} _.
Arguments undef_count {V} _.
Arguments hole_count {V} _.

(** ** Order of Number elements in a typed array
    (ECMAScript: NaN last, -0 before +0). A double is a NaN or a value with a
    sign bit; only the order of the values matters, so the value is an integer
    rank (0 for both zeros). *)
Inductive dnum := DNaN | DVal (v : Z) (neg : bool).

Definition dnum_le (a b : dnum) : Prop :=
  match a, b with
  | _, DNaN => True
  | DNaN, DVal _ _ => False
  | DVal x nx, DVal y ny => (x < y)%Z \/ (x = y /\ (nx = true \/ ny = false))
  end.
