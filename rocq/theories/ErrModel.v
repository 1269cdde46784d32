(** The constructors of errors and Error.prototype.toString
    (src/lib/rjs_error.c lines 365-600).

    Every operation that can run code of the program (reading new.target.prototype,
    ToString, [[HasProperty]], [[Get]], iterating) is an event; the outside world says
    for each whether it throws. The properties are defined on a new ordinary object,
    which cannot fail. Not modelled: the properties of the prototypes, the stack. *)
From Coq Require Import List ZArith Bool.
Import ListNotations.
Local Open Scope Z_scope.

Definition text := list Z.

Inductive val := Undef | Text (t : text) | Other (n : Z).

Inductive event :=
| EProto                      (* Get(newTarget, "prototype") *)
| EString (v : val)           (* ToString *)
| EHasCause (o : Z) | EGetCause (o : Z)
| EIterate (v : val)
| EGetName | EGetMessage.

(** The outside world: None is a throw. *)
Record world := mkWorld {
  w_proto : bool;                       (* reading the prototype succeeds *)
  w_string : val -> option text;
  w_has : Z -> option bool;
  w_cause : Z -> option val;
  w_iterate : val -> option (list val);
  w_name : option val; w_message : option val }.

(** The class of the new object: with error_ops (RJS_GC_THING_ERROR) or ordinary. *)
Inductive kind := KError | KOrdinary.

Inductive prop := PMessage (t : text) | PCause (v : val) | PErrors (l : list val).
Record object := mkObject { o_kind : kind; o_props : list prop }.

Definition result (A : Type) := (list event * option A)%type.
Definition bind {A B} (m : result A) (f : A -> result B) : result B :=
  match m with
  | (t, None) => (t, None)
  | (t, Some a) => match f a with (t', r) => (t ++ t', r) end
  end.
Definition ret {A} (a : A) : result A := ([], Some a).
Definition ask {A} (e : event) (r : option A) : result A := ([e], r).

(** rjs_ordinary_init_from_constructor, line 383; rjs_ordinary_create_from_constructor, line 531 *)
Definition create (w : world) (k : kind) : result object :=
  bind (ask EProto (if w_proto w then Some tt else None)) (fun _ => ret (mkObject k [])).

Definition add (o : object) (p : prop) : object := mkObject (o_kind o) (o_props o ++ [p]).

(** lines 388-394 and 534-540 *)
Definition set_message (w : world) (msg : val) (o : object) : result object :=
  match msg with
  | Undef => ret o
  | _ => bind (ask (EString msg) (w_string w msg)) (fun t => ret (add o (PMessage t)))
  end.

(** lines 396-407 and 542-553; [opt] is the object given as options, if it is an object *)
Definition set_cause (w : world) (opt : option Z) (o : object) : result object :=
  match opt with
  | None => ret o
  | Some p =>
      bind (ask (EHasCause p) (w_has w p)) (fun has =>
      if has : bool then bind (ask (EGetCause p) (w_cause w p)) (fun c => ret (add o (PCause c)))
      else ret o)
  end.

(** generic_error_constructor, lines 365-413 *)
Definition error_new (w : world) (msg : val) (opt : option Z) : result object :=
  bind (create w KError) (fun o => bind (set_message w msg o) (set_cause w opt)).

(** AggregateError_constructor, lines 514-568 *)
Definition aggregate_new (w : world) (errs msg : val) (opt : option Z) : result object :=
  bind (create w KOrdinary) (fun o => bind (set_message w msg o) (fun o =>
  bind (set_cause w opt o) (fun o =>
  bind (ask (EIterate errs) (w_iterate w errs)) (fun l => ret (add o (PErrors l)))))).

(** lines 432-437 and 442-447 *)
Definition text_or (w : world) (v : val) (d : text) : result text :=
  match v with
  | Undef => ret d
  | _ => ask (EString v) (w_string w v)
  end.

Definition is_nil {A} (l : list A) : bool := match l with [] => true | _ => false end.

(** error_toString, lines 416-474, of an object; "Error" and ": " as code units *)
Definition s_Error : text := [69; 114; 114; 111; 114].
Definition to_string (w : world) : result text :=
  bind (ask EGetName (w_name w)) (fun name =>
  bind (text_or w name s_Error) (fun n =>
  bind (ask EGetMessage (w_message w)) (fun msg =>
  bind (text_or w msg []) (fun m =>
  ret (if is_nil n then m else if is_nil m then n else n ++ [58; 32] ++ m))))).
