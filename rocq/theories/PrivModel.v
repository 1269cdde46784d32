(** Model of private names and private elements of classes.

    Source: /repo/src/lib/rjs_private_name_opt.c lines 105-228 (private_name_add,
    rjs_private_env_push, rjs_private_name_lookup), 231-266 and 278-517 (the private
    elements of an object), rjs_function.c lines 106-158
    (rjs_initialize_instance_elements, the part for private methods).

    Simplifications.  A private name is a number, the address of its structure; a new
    structure has a number never used before (no private name is freed as long as an
    object or environment holds it, rjs_object.c:515-524).  The private elements of
    an object are a function from private names; its other properties have string
    and symbol keys and are left out.  A getter or setter that has to be called is an
    outcome that tells function, receiver and arguments.  A private identifier that no
    environment declares is an early error of the parser; here the failed assert is
    the outcome [Abort].  The conversion of the base to an object is that of area Val. *)
From Coq Require Import List ZArith Bool.
Import ListNotations.
Local Open Scope Z_scope.

(** RJS_Property with the attributes 1, METHOD and ACCESSOR *)
Inductive elem := Field (v : Z) | Method (f : Z) | Accessor (g s : option Z).
Definition obj := Z -> option elem.
Inductive out := Done | Value (v : Z) | Calls (f : Z) (args : list Z) | TypeError | Abort.
Definition put {A} (f : Z -> A) (n : Z) (a : A) : Z -> A := fun m => if m =? n then a else f m.

(** An environment: identifiers and their private names; the outer ones follow. *)
Definition frame := list (Z * Z).
Fixpoint find (id : Z) (fr : frame) : option Z :=
  match fr with [] => None | (i, n) :: fr => if i =? id then Some n else find id fr end.
(** private_name_add, lines 105-135; [next] is the next new address *)
Definition name_add (fr : frame) (next id : Z) : frame * Z :=
  match find id fr with Some _ => (fr, next) | None => ((id, next) :: fr, next + 1) end.
(** rjs_private_env_push, lines 144-177 *)
Fixpoint names_add (fr : frame) (next : Z) (ids : list Z) : frame * Z :=
  match ids with
  | [] => (fr, next)
  | id :: ids => let '(fr, next) := name_add fr next id in names_add fr next ids
  end.
Definition env_push (env : list frame) (next : Z) (ids : list Z) : list frame * Z :=
  let '(fr, next) := names_add [] next ids in (fr :: env, next).
(** rjs_private_name_lookup, lines 203-228 *)
Fixpoint lookup (id : Z) (env : list frame) : option Z :=
  match env with [] => None | fr :: env => match find id fr with Some n => Some n | None => lookup id env end end.

(** rjs_private_get, lines 278-317 *)
Definition private_get (env : list frame) (o : obj) (id : Z) : out :=
  match lookup id env with
  | None => Abort
  | Some n =>
      match o n with
      | None => TypeError
      | Some (Field v) => Value v
      | Some (Method f) => Value f
      | Some (Accessor None _) => TypeError
      | Some (Accessor (Some g) _) => Calls g []
      end
  end.
(** rjs_private_set, lines 327-369 *)
Definition private_set (env : list frame) (o : obj) (id v : Z) : obj * out :=
  match lookup id env with
  | None => (o, Abort)
  | Some n =>
      match o n with
      | None => (o, TypeError)
      | Some (Field _) => (put o n (Some (Field v)), Done)
      | Some (Method _) => (o, TypeError)
      | Some (Accessor _ None) => (o, TypeError)
      | Some (Accessor _ (Some s)) => (o, Calls s [v])
      end
  end.
(** rjs_private_element_find, lines 493-517 *)
Definition private_in (env : list frame) (o : obj) (id : Z) : option bool :=
  match lookup id env with None => None | Some n => Some (match o n with Some _ => true | None => false end) end.

(** rjs_private_field_add and _method_add, lines 375-427: [None] is the TypeError *)
Definition field_add (e : option elem) (v : Z) : option elem :=
  match e with Some _ => None | None => Some (Field v) end.
Definition method_add (e : option elem) (f : Z) : option elem :=
  match e with Some _ => None | None => Some (Method f) end.
(** rjs_private_accessor_add, lines 436-484 *)
Definition is_some {A} (x : option A) : bool := match x with Some _ => true | None => false end.
Definition accessor_add (e : option elem) (get set : option Z) : option elem :=
  match e with
  | Some (Accessor g s) =>
      if is_some g && is_some get then None
      else if is_some s && is_some set then None
      else Some (Accessor (if is_some get then get else g) (if is_some set then set else s))
  | Some _ => None
  | None => Some (Accessor get set)
  end.

(** The private methods of a class: RJS_ScriptMethod *)
Inductive item := IMethod (f : Z) | IGet (f : Z) | ISet (f : Z).
Definition item_add (e : option elem) (i : item) : option elem :=
  match i with
  | IMethod f => method_add e f
  | IGet f => accessor_add e (Some f) None
  | ISet f => accessor_add e None (Some f)
  end.
(** the loop of rjs_initialize_instance_elements *)
Fixpoint initialize (ms : list (Z * item)) (o : obj) : obj * out :=
  match ms with
  | [] => (o, Done)
  | (n, i) :: ms =>
      match item_add (o n) i with
      | None => (o, TypeError)
      | Some e => initialize ms (put o n (Some e))
      end
  end.
(** a private field of rjs_define_field, rjs_operation.c lines 1822-1858 *)
Definition define_field (o : obj) (n v : Z) : obj * out :=
  match field_add (o n) v with None => (o, TypeError) | Some e => (put o n (Some e), Done) end.
