(** Indexed properties as a finite map. *)
From Coq Require Import ZArith List.
Import ListNotations.
From Verif Require Import StrModel StoreModel.
Local Open Scope Z_scope.

(** array indices: 0 .. 2^32-2 *)
Definition valid_index (i : Z) : Prop := 0 <= i < 0xffffffff.

Inductive sop := Put (i : Z) (p : prop) | Del (i : Z).
Definition op_index (o : sop) : Z := match o with Put i _ => i | Del i => i end.

Definition imap := Z -> option prop.
Definition set_map (m : imap) (i : Z) (x : option prop) : imap := fun j => if j =? i then x else m j.
Definition spec_step (m : imap) (o : sop) : imap :=
  match o with Put i p => set_map m i (Some p) | Del i => set_map m i None end.
Definition spec_run (h : list sop) : imap := fold_left spec_step h (fun _ => None).

(** A history on the modelled storage: rjs_object.c looks the index up, then adds or
    updates the node (prop_add, validate_and_apply_property), or deletes it *)
Definition s_step (s : store) (o : sop) : sres store :=
  do x <- s_lookup s (op_index o);
  match o, x with
  | Put i p, None => s_add s i p
  | Put i p, Some _ => s_update s i p
  | Del i, None => SOk s
  | Del i, Some _ => s_delete s i
  end.
Fixpoint s_run (s : store) (h : list sop) : sres store :=
  match h with [] => SOk s | o :: r => do s' <- s_step s o; s_run s' r end.
