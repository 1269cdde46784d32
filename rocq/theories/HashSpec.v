(** Specification: a finite map as a list of bindings, first binding added
    wins until it is deleted. *)
From Coq Require Import List Bool.
Import ListNotations.
From Verif Require Import HashModel.

Section Spec.
  Variable K E : Type.
  Variable keq : K -> K -> bool.

  Definition sget (m : list (K * E)) (k : K) : option (K * E) :=
    find (fun b => keq (fst b) k) m.

  Definition sadd (m : list (K * E)) (k : K) (e : E) : list (K * E) :=
    match sget m k with Some _ => m | None => m ++ [(k, e)] end.

  Definition sdel (m : list (K * E)) (k : K) : list (K * E) :=
    filter (fun b => negb (keq (fst b) k)) m.

  Definition sstep (m : list (K * E)) (o : hop K E) : list (K * E) :=
    match o with
    | HAdd _ _ k e => sadd m k e
    | HAddNull _ _ k e => sadd m k e
    | HDel _ _ k => sdel m k
    end.

  Definition srun (ops : list (hop K E)) : list (K * E) := fold_left sstep ops [].
End Spec.
