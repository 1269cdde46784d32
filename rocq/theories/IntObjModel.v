(** Model of the internal methods of typed arrays (integer-indexed exotic objects).

    Source: /repo/src/lib/rjs_int_indexed_object_opt.c lines 55-350.  The reading and
    writing of the bytes of an element is in ViewModel and BufElemSpec (C32, C33); here
    it is an operation of a world.

    The ordinary internal methods, the conversion of a value (which can run code of
    the program that detaches the buffer), and the bytes are operations of a world
    [tworld], as in MethModel.  A key that is a canonical numeric string is given by
    its number.

    Simplifications.  array_length is fixed when the object is made.  A number is
    an integer, -0, or something else (a fraction, NaN, an infinity); the comparison
    with array_length is exact, as it is below 2^53. *)
From Coq Require Import List ZArith Bool.
From Verif Require Import MethModel DescModel.
Import ListNotations.
Local Open Scope Z_scope.

Inductive number := Int (n : Z) | MinusZero | NotInt.
(** rjs_canonical_numeric_index_string gives a number, or the key is any other *)
Inductive tkey := Canon (n : number) | Plain (k : pkey).

Record tworld := mkT {
  TW : Type;
  t_detached : TW -> bool;
  t_read : Z -> TW -> Z;
  t_write : Z -> Z -> TW -> TW;
  t_convert : val -> M TW Z;                  (* rjs_to_number or rjs_to_big_int *)
  t_own : pkey -> M TW (option desc);         (* the ordinary methods of this object *)
  t_define : pkey -> desc -> M TW bool;
  t_has : pkey -> M TW bool;
  t_get : pkey -> val -> M TW val;
  t_set : tkey -> val -> val -> M TW bool;
  t_delete : pkey -> M TW bool;
  t_keys : M TW (list pkey)
}.

Section S.
Variable w : tworld.
Variable self : val.
Variable len : Z.   (* array_length *)
Notation M := (M (TW w)).

(** rjs_is_valid_int_index, lines 65-86 *)
Definition valid (n : number) : M (option Z) := fun s =>
  (s, Ok (if t_detached w s then None
          else match n with
               | NotInt => None
               | MinusZero => None
               | Int i => if (i <? 0) || (len <=? i) then None else Some i
               end)).
(** rjs_int_indexed_element_get, lines 97-117 *)
Definition element_get (n : number) : M val :=
  r <- valid n ;; match r with None => ret Undef | Some i => fun s => (s, Ok (Num (t_read w i s))) end.
(** rjs_int_indexed_element_set, lines 128-168 *)
Definition element_set (n : number) (v : val) : M unit :=
  e <- t_convert w v ;;
  r <- valid n ;;
  match r with None => ret tt | Some i => fun s => (t_write w i e s, Ok tt) end.
(** int_indexed_object_op_get_own_property, lines 171-197 *)
Definition get_own (k : tkey) : M (option desc) :=
  match k with
  | Canon n =>
      v <- element_get n ;;
      ret (if is_undef v then None else Some (mkD (Some v) (Some true) None None (Some true) (Some true)))
  | Plain k => t_own w k
  end.
Definition is_false (o : option bool) : bool := match o with Some false => true | _ => false end.
Definition is_some {A} (o : option A) : bool := match o with Some _ => true | None => false end.
(** int_indexed_object_op_define_own_property, lines 200-233 *)
Definition define_own (k : tkey) (d : desc) : M bool :=
  match k with
  | Canon n =>
      r <- valid n ;;
      if negb (is_some r) then ret false
      else if is_false (d_configurable d) then ret false
      else if is_false (d_enumerable d) then ret false
      else if is_some (d_getter d) || is_some (d_setter d) then ret false
      else if is_false (d_writable d) then ret false
      else match d_value d with Some v => element_set n v ;;; ret true | None => ret true end
  | Plain k => t_define w k d
  end.
(** int_indexed_object_op_has_property, lines 236-250 *)
Definition has_property (k : tkey) : M bool :=
  match k with Canon n => r <- valid n ;; ret (is_some r) | Plain k => t_has w k end.
(** int_indexed_object_op_get, lines 253-268 *)
Definition get_property (k : tkey) (receiver : val) : M val :=
  match k with Canon n => element_get n | Plain k => t_get w k receiver end.
(** int_indexed_object_op_set, lines 271-286: the receiver is not looked at *)
Definition set_property (k : tkey) (v receiver : val) : M bool :=
  match k with Canon n => element_set n v ;;; ret true | Plain _ => t_set w k v receiver end.
(** int_indexed_object_op_delete, lines 289-306 *)
Definition delete_property (k : tkey) : M bool :=
  match k with Canon n => r <- valid n ;; ret (negb (is_some r)) | Plain k => t_delete w k end.
(** int_indexed_object_op_own_property_keys, lines 309-335 *)
Fixpoint count (n : nat) (i : Z) : list tkey :=
  match n with O => [] | S n => Canon (Int i) :: count n (i + 1) end.
Definition own_property_keys : M (list tkey) :=
  l <- t_keys w ;; ret (count (Z.to_nat len) 0 ++ map Plain l).
End S.
