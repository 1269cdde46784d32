(** What the standard says (20.5.1.1, 20.5.3.4, 20.5.7.1.1, 20.5.8.1): the list of all
    steps that run code, done in order up to the first that throws. *)
From Coq Require Import List ZArith Bool.
From Verif Require Import ErrModel.
Import ListNotations.
Local Open Scope Z_scope.

Definition throws (w : world) (e : event) : bool :=
  let no {A} (x : option A) := match x with None => true | Some _ => false end in
  match e with
  | EProto => negb (w_proto w)
  | EString v => no (w_string w v)
  | EHasCause o => no (w_has w o)
  | EGetCause o => no (w_cause w o)
  | EIterate v => no (w_iterate w v)
  | EGetName => no (w_name w)
  | EGetMessage => no (w_message w)
  end.

(** the steps that happen *)
Fixpoint happen (w : world) (l : list event) : list event :=
  match l with
  | [] => []
  | e :: r => if throws w e then [e] else e :: happen w r
  end.

Definition string_steps (v : val) : list event := match v with Undef => [] | _ => [EString v] end.
Definition cause_steps (w : world) (opt : option Z) : list event :=
  match opt with
  | None => []
  | Some o => EHasCause o :: match w_has w o with Some true => [EGetCause o] | _ => [] end
  end.
Definition error_steps (w : world) (msg : val) (opt : option Z) : list event :=
  EProto :: string_steps msg ++ cause_steps w opt.
Definition name_steps (v : option val) : list event :=
  match v with Some x => string_steps x | None => [] end.
Definition text_steps (w : world) : list event :=
  EGetName :: name_steps (w_name w) ++ EGetMessage :: name_steps (w_message w).

(** the properties of an error *)
Definition has_message (w : world) (msg : val) (o : object) : Prop :=
  forall t, In (PMessage t) (o_props o) <-> msg <> Undef /\ w_string w msg = Some t.
Definition has_cause (w : world) (opt : option Z) (o : object) : Prop :=
  forall c, In (PCause c) (o_props o) <-> exists p, opt = Some p /\ w_has w p = Some true /\ w_cause w p = Some c.
Definition has_errors (w : world) (errs : option val) (o : object) : Prop :=
  forall l, In (PErrors l) (o_props o) <-> exists v, errs = Some v /\ w_iterate w v = Some l.

(** the texts that are not empty, separated by a colon and a space *)
Fixpoint joined (l : list text) : text :=
  match l with
  | [] => []
  | [x] => x
  | x :: r => x ++ 58 :: 32 :: joined r
  end.
Definition not_empty (t : text) : bool := match t with [] => false | _ => true end.
Definition text_of (w : world) (v : val) (d : text) : option text :=
  match v with Undef => Some d | _ => w_string w v end.
(** the text "Error" *)
Definition default_name : text := [69; 114; 114; 111; 114].
