(** Model of bound functions.

    Source: /repo/src/lib/rjs_bound_func_object_opt.c lines 54-117
    (bound_func_object_call, bound_func_object_construct) and 157-192
    (rjs_bound_func_object_new), rjs_function_object_inc.c lines 94-183
    (Function.prototype.bind without the name, Function.prototype.call).

    Simplifications.  A function that is not bound is its number; calling it is the
    outcome, with receiver, arguments and new.target.  Functions are the same value if
    their numbers are equal.  bfo->args is NULL if and only if there are no bound
    arguments, so it is the empty list.  The number read from length is an integer
    (as rjs_to_integer_or_infinity gives it) or an infinity.  Copies on the value stack
    are lists. *)
From Coq Require Import List ZArith Bool.
Import ListNotations.
Local Open Scope Z_scope.

Inductive func :=
| Base (id : Z) (ctor : bool)
| Bound (id : Z) (target : func) (this : Z) (args : list Z).
Definition fid (f : func) : Z := match f with Base i _ => i | Bound i _ _ _ => i end.
(** the operation tables chosen at lines 184-187 *)
Fixpoint is_ctor (f : func) : bool := match f with Base _ c => c | Bound _ t _ _ => is_ctor t end.
Record called := mkCalled { c_func : Z; c_this : Z; c_args : list Z }.
Record constructed := mkMade { m_func : Z; m_args : list Z; m_target : Z }.

Definition is_nil (l : list Z) : bool := match l with [] => true | _ => false end.
(** the three cases of lines 63-74 and 93-104 *)
Definition all_args (bound args : list Z) : list Z :=
  if is_nil args then bound else if is_nil bound then args else bound ++ args.
(** bound_func_object_call, lines 54-82 *)
Fixpoint call (f : func) (this : Z) (args : list Z) : called :=
  match f with
  | Base i _ => mkCalled i this args
  | Bound _ t th b => call t th (all_args b args)
  end.
(** bound_func_object_construct, lines 84-117; the object has no such operation if its
    target has none *)
Fixpoint construct (f : func) (args : list Z) (target : Z) : option constructed :=
  match f with
  | Base i c => if c then Some (mkMade i args target) else None
  | Bound i t _ b => construct t (all_args b args) (if i =? target then fid t else target)
  end.

Inductive num := NInf | PInf | Fin (z : Z).
(** Function.prototype.bind, lines 124-148: the length; [None]: no own property, or
    not a number *)
Definition bound_length (len : option num) (argc : Z) : num :=
  match len with
  | None => Fin 0
  | Some PInf => PInf
  | Some NInf => Fin 0
  | Some (Fin z) => Fin (if z - argc >? 0 then z - argc else 0)
  end.
(** Function.prototype.bind, lines 108-122: [i] is the number of the new object *)
Definition bind (f : func) (i : Z) (args : list Z) (undef : Z) : func :=
  match args with
  | [] => Bound i f undef []
  | th :: rest => Bound i f th rest
  end.
(** Function.prototype.call, lines 165-183 *)
Definition call_method (f : func) (args : list Z) (undef : Z) : called :=
  match args with
  | [] => call f undef []
  | th :: rest => call f th rest
  end.
