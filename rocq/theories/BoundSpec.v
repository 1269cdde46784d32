(** What 10.4.1 and 20.2.3.2 say of functions bound any number of times. *)
From Coq Require Import List ZArith Bool.
From Verif Require Import BoundModel.
Import ListNotations.
Local Open Scope Z_scope.

(** Binding [base] with a list of (number, receiver, arguments), the first one first *)
Definition step := (Z * Z * list Z)%type.
Definition bind_all (base : func) (l : list step) : func :=
  fold_left (fun f '(i, th, a) => Bound i f th a) l base.
Definition numbers (l : list step) : list Z := map (fun '(i, _, _) => i) l.
Definition arguments (l : list step) : list Z := concat (map (fun '(_, _, a) => a) l).
(** the receiver of the first bind counts *)
Definition receiver (l : list step) (this : Z) : Z :=
  match l with [] => this | (_, th, _) :: _ => th end.
Definition max0 (z : Z) : Z := Z.max z 0.
