(** Model of rjs_regexp_builtin_exec, src/lib/rjs_regexp.c:2805-2994, on top of the
    matcher of RegModel.v.

    The property lastIndex is read by get_last_index (1851-1870) as a length and
    written with rjs_set_number; the model takes the value read and returns the
    value written.  The result array is the list of its elements; an element for
    which no property is created is [Hole].
    Not modelled: allocation failure, errors of the property operations (the
    ones on the new array and objects are not checked by the code). *)
From Coq Require Import ZArith List Bool Arith.
Import ListNotations.
From Verif Require Import RegModel.
Local Open Scope Z_scope.

(** regexp_adv_str_index, rjs_regexp.c:1939-1960 *)
Definition adv_index (E : env) (idx : nat) : nat :=
  if negb (fl_u E) then idx + 1
  else
    let c := get_char E (Z.of_nat idx) in
    if c =? -1 then idx + 1
    else if negb (is_lead c) then idx + 1
    else
      let c := get_char E (Z.of_nat idx + 1) in
      if is_trail c then idx + 2 else idx + 1.

(** the loop of rjs_regexp.c:2847-2878: the index and the vector of the match;
    [tries] bounds the iterations, [fuel] each match; None: not finished or out of
    the arrays *)
Fixpoint search (E : env) (pat : pattern) (sticky : bool) (tries fuel idx : nat) (m : list Z)
    : option (option (nat * list Z)) :=
  match tries with
  | O => None
  | S t =>
      if (length (str E) <? idx)%nat then Some None
      else
        match run E fuel (start E pat idx m) with
        | Some (Halt true v _) => Some (Some (idx, v))
        | Some (Halt false _ m') =>
            if sticky then Some None else search E pat sticky t fuel (adv_index E idx) m'
        | _ => None
        end
  end.

(** rjs_string_substr *)
Definition substr (s : list Z) (a b : Z) : list Z := firstn (Z.to_nat (b - a)) (skipn (Z.to_nat a) s).

Inductive slot := Hole | Text (s : list Z).
Record answer := {
  a_index : nat;
  a_elems : list slot;                       (* the elements of the array *)
  a_groups : option (list (option (list Z)));  (* the value of each name, None: undefined *)
  a_indices : option (list (option (Z * Z)) * option (list (option (Z * Z)))) }.

(** the start and end of a group, exchanged if necessary, rjs_regexp.c:2932-2942 *)
Definition group_span (v : list Z) (i : nat) : option (Z * Z) :=
  let s := vget v (2 * i) in
  let e := vget v (2 * i + 1) in
  let '(s, e) := if e <? s then (e, s) else (s, e) in
  if (s =? -1) || (e =? -1) then None else Some (s, e).
Fixpoint put {A} (l : list A) (i : nat) (x : A) : list A :=
  match l, i with
  | [], _ => []
  | _ :: r, O => x :: r
  | a :: r, S j => a :: put r j x
  end.
(** the items of the names, rjs_regexp.c:2956-2971: a group which took part writes the
    item of its name *)
Definition named {A} (E : env) (nn : nat) (v : list Z) (f : Z * Z -> A) : list (option A) :=
  fold_left (fun l i =>
      match group_span v i with
      | None => l
      | Some r =>
          let gn := nth i (group_names E) (-1) in
          if gn =? -1 then l else put l (Z.to_nat gn) (Some (f r))
      end)
    (seq 1 (group_num E - 1)) (repeat None nn).

(** rjs_regexp.c:2880-2994; [nn] is the number of the names, 0 without group_names *)
Definition build (E : env) (nn : nat) (d : bool) (idx : nat) (v : list Z) : answer :=
  let sub r := substr (str E) (fst r) (snd r) in
  let spans := map (group_span v) (seq 1 (group_num E - 1)) in
  {| a_index := idx;
     a_elems := Text (substr (str E) (vget v 0) (vget v 1)) ::
                map (fun o => match o with Some r => Text (sub r) | None => Hole end) spans;
     a_groups := if (nn =? 0)%nat then None else Some (named E nn v sub);
     a_indices := if d then Some (Some (vget v 0, vget v 1) :: spans,
                                  if (nn =? 0)%nat then None else Some (named E nn v (fun r => r)))
                  else None |}.

(** the value returned (None: null) and the value written to lastIndex (None: not
    written) *)
Definition builtin_exec (E : env) (pat : pattern) (nn : nat) (g y d : bool) (tries fuel last : nat)
    : option (option answer * option Z) :=
  let idx := if g || y then last else O in
  match search E pat y tries fuel idx [] with
  | None => None
  | Some None => Some (None, if g || y then Some 0 else None)
  | Some (Some (i, v)) =>
      Some (Some (build E nn d i v), if g || y then Some (vget v 1) else None)
  end.
