(** Model of property descriptors as values and of the functions of Object that go
    through all properties.

    Source: /repo/src/lib/rjs_operation.c lines 253-427 (rjs_to_property_descriptor,
    rjs_from_property_descriptor), rjs_object_object_inc.c lines 53-143, 167-220
    (assign, defineProperties, defineProperty), 225-303 (keys, values,
    entries), 372-524 (getOwnPropertyDescriptor(s), getOwnPropertyNames, ...Symbols),
    978-1047 (Object.prototype.toString), rjs_object.c lines 1534-1580
    (rjs_object_assign), include/ratjs/rjs_operation.h lines 1746-1757.

    What the objects do are the operations of a world [dworld], as in MethModel: any
    operation may change the state and may throw.

    Simplifications.  A new array or a new descriptor object cannot be reached by
    the program before the function returns; it is the list of its elements or
    properties, and creating an element of it succeeds.  Of a descriptor that is
    only tested for RJS_PROP_FL_ENUMERABLE just this flag is kept.  What
    rjs_object_get_own_property leaves in it when there is no property or an error is
    an arbitrary function [d_left] of the state and the old flag (ordinary objects
    keep the old one, rjs_object.c:676-678).  The conversion of a tag to bytes and back
    is left out except for its end at a zero. *)
From Coq Require Import List ZArith Bool Ascii String.
From Verif Require Import MethModel.
Import ListNotations.
Local Open Scope Z_scope.

Inductive pkey := PStr (s : list Z) | PSym (n : Z).
Inductive field := FEnumerable | FConfigurable | FValue | FWritable | FGet | FSet.
(** a descriptor as a value of the standard: what is there *)
Record desc := mkD {
  d_value : option val; d_writable : option bool; d_getter : option val; d_setter : option val;
  d_enumerable : option bool; d_configurable : option bool }.
(** RJS_PropertyDesc: the flags and the three slots, which keep old values *)
Record cdesc := mkC {
  has_enumerable : bool; enumerable : bool; has_configurable : bool; configurable : bool;
  has_value : bool; value : val; has_writable : bool; writable : bool;
  has_get : bool; getter : val; has_set : bool; setter : val }.
(** what rjs_object_define_own_property sees of it *)
Definition seen (c : cdesc) : desc := {|
  d_value := if has_value c then Some (value c) else None;
  d_writable := if has_writable c then Some (writable c) else None;
  d_getter := if has_get c then Some (getter c) else None;
  d_setter := if has_set c then Some (setter c) else None;
  d_enumerable := if has_enumerable c then Some (enumerable c) else None;
  d_configurable := if has_configurable c then Some (configurable c) else None |}.

Inductive kind := KArguments | KBoolean | KNumber | KString | KError | KRegExp | KDate | KOther.

Record dworld := mkDW {
  DW : Type;
  d_object : val -> M DW val;                    (* rjs_to_object *)
  d_key : val -> M DW pkey;                      (* rjs_to_property_key *)
  d_keys : val -> M DW (list pkey);              (* [[OwnPropertyKeys]] *)
  d_own : val -> pkey -> M DW (option desc);     (* [[GetOwnProperty]] *)
  d_left : DW -> bool -> bool;
  d_get : val -> pkey -> M DW val;
  d_set : val -> pkey -> val -> M DW bool;
  d_define : val -> pkey -> desc -> M DW bool;   (* [[DefineOwnProperty]] *)
  d_has_field : val -> field -> M DW bool;
  d_field : val -> field -> M DW val;
  d_is_array : val -> M DW bool;
  d_tag : val -> M DW val;                       (* Get of @@toStringTag *)
  d_kind : val -> kind;
  d_callable : val -> bool;
  d_truthy : val -> bool
}.

Section S.
Variable w : dworld.
Notation M := (M (DW w)).

Definition clear (c : cdesc) : cdesc :=
  mkC false false false false false (value c) false false false (getter c) false (setter c).
(** the flags and the slot of one field *)
Definition put (f : field) (v : val) (c : cdesc) : cdesc :=
  match f with
  | FEnumerable => mkC true (d_truthy w v) (has_configurable c) (configurable c) (has_value c) (value c)
                       (has_writable c) (writable c) (has_get c) (getter c) (has_set c) (setter c)
  | FConfigurable => mkC (has_enumerable c) (enumerable c) true (d_truthy w v) (has_value c) (value c)
                         (has_writable c) (writable c) (has_get c) (getter c) (has_set c) (setter c)
  | FValue => mkC (has_enumerable c) (enumerable c) (has_configurable c) (configurable c) true v
                  (has_writable c) (writable c) (has_get c) (getter c) (has_set c) (setter c)
  | FWritable => mkC (has_enumerable c) (enumerable c) (has_configurable c) (configurable c) (has_value c) (value c)
                     true (d_truthy w v) (has_get c) (getter c) (has_set c) (setter c)
  | FGet => mkC (has_enumerable c) (enumerable c) (has_configurable c) (configurable c) (has_value c) (value c)
                (has_writable c) (writable c) true v (has_set c) (setter c)
  | FSet => mkC (has_enumerable c) (enumerable c) (has_configurable c) (configurable c) (has_value c) (value c)
                (has_writable c) (writable c) (has_get c) (getter c) true v
  end.
(** the blocks of the function at lines 268-311 and 313-343 *)
Definition read_field (o : val) (f : field) (c : cdesc) : M cdesc :=
  h <- d_has_field w o f ;;
  if h then v <- d_field w o f ;; ret (put f v c) else ret c.
Definition read_function (o : val) (f : field) (c : cdesc) : M cdesc :=
  h <- d_has_field w o f ;;
  if h then
    v <- d_field w o f ;;
    if negb (d_callable w v) && negb (is_undef v) then throw TypeError else ret (put f v c)
  else ret c.
(** rjs_to_property_descriptor, lines 253-361 *)
Definition to_pd (o : val) (c : cdesc) : M cdesc :=
  if negb (is_object o) then throw TypeError
  else
    c <- read_field o FEnumerable (clear c) ;;
    c <- read_field o FConfigurable c ;;
    c <- read_field o FValue c ;;
    c <- read_field o FWritable c ;;
    c <- read_function o FGet c ;;
    c <- read_function o FSet c ;;
    if (has_get c || has_set c) && (has_value c || has_writable c) then throw TypeError else ret c.

(** rjs_from_property_descriptor, lines 374-427: the properties of the new object in
    the order of their creation *)
Definition from_pd (c : cdesc) : list (field * val) :=
  (if has_value c then [(FValue, value c)] else []) ++
  (if has_writable c then [(FWritable, Bool (writable c))] else []) ++
  (if has_get c then [(FGet, getter c)] else []) ++
  (if has_set c then [(FSet, setter c)] else []) ++
  (if has_enumerable c then [(FEnumerable, Bool (enumerable c))] else []) ++
  (if has_configurable c then [(FConfigurable, Bool (configurable c))] else []).
(** a descriptor of [[GetOwnProperty]] in the structure: the slots that are not used
    keep what they had *)
Definition load (d : desc) (c : cdesc) : cdesc :=
  let b (o : option bool) := match o with Some x => x | None => false end in
  let i {A} (o : option A) := match o with Some _ => true | None => false end in
  let s (o : option val) x := match o with Some v => v | None => x end in
  mkC (i (d_enumerable d)) (b (d_enumerable d)) (i (d_configurable d)) (b (d_configurable d))
      (i (d_value d)) (s (d_value d) (value c)) (i (d_writable d)) (b (d_writable d))
      (i (d_getter d)) (s (d_getter d) (getter c)) (i (d_setter d)) (s (d_setter d) (setter c)).
Definition fresh : cdesc := mkC false false false false false Undef false false false Undef false Undef.

(** rjs_define_property_or_throw *)
Definition define_or_throw (o : val) (k : pkey) (d : desc) : M unit :=
  ok <- d_define w o k d ;; if ok then ret tt else throw TypeError.
(** Object.defineProperty, lines 185-220 *)
Definition define_property (o p attrs : val) : M val :=
  if negb (is_object o) then throw TypeError
  else k <- d_key w p ;; c <- to_pd attrs fresh ;; define_or_throw o k (seen c) ;;; ret o.

(** [m], and [h] if it throws *)
Definition on_err {A} (m : M A) (h : M A) : M A := fun s => match m s with (s, Throw _) => h s | x => x end.
Definition is_enumerable (d : desc) : bool := match d_enumerable d with Some true => true | _ => false end.
(** the flag ENUMERABLE of pd after rjs_object_get_own_property *)
Definition left (old : bool) : M bool := fun s => (s, Ok (d_left w s old)).
Definition own_flag (o : val) (k : pkey) (old : bool) : M bool :=
  r <- d_own w o k ;; match r with Some d => ret (is_enumerable d) | None => left old end.
(** the loop of object_define_properties, lines 113-133.  The test in line 119 is an
    assignment: the result RJS_ERR or RJS_FALSE is replaced by RJS_OK. *)
Fixpoint define_loop (o props : val) (keys : list pkey) (pd : bool) (npd : cdesc) : M unit :=
  match keys with
  | [] => ret tt
  | k :: keys =>
      pd <- on_err (own_flag props k pd) (left pd) ;;
      if pd then
        v <- d_get w props k ;;
        npd <- to_pd v npd ;;
        define_or_throw o k (seen npd) ;;;
        define_loop o props keys pd npd
      else define_loop o props keys pd npd
  end.
(** object_define_properties, lines 91-142 *)
Definition define_properties (o props : val) : M unit :=
  p <- d_object w props ;; keys <- d_keys w p ;; define_loop o p keys false fresh.
(** Object.defineProperties, lines 167-183 *)
Definition object_define_properties (o props : val) : M val :=
  if negb (is_object o) then throw TypeError else define_properties o props ;;; ret o.

(** what array_from_own_properties collects: flags *)
Inductive what := Keys | Values | Entries.
Inductive item := IKey (k : pkey) | IVal (v : val) | IPair (k : pkey) (v : val).
Definition is_string (k : pkey) : bool := match k with PStr _ => true | PSym _ => false end.
(** array_from_own_properties, lines 225-286 *)
Fixpoint collect (f : what) (o : val) (keys : list pkey) (a : list item) : M (list item) :=
  match keys with
  | [] => ret a
  | k :: keys =>
      if negb (is_string k) then collect f o keys a
      else
        r <- d_own w o k ;;
        match r with
        | Some d =>
            if is_enumerable d then
              i <- (match f with
                    | Keys => ret (IKey k)
                    | Values => v <- d_get w o k ;; ret (IVal v)
                    | Entries => v <- d_get w o k ;; ret (IPair k v)
                    end) ;;
              collect f o keys (a ++ [i])
            else collect f o keys a
        | None => collect f o keys a
        end
  end.
Definition own_properties (f : what) (v : val) : M (list item) :=
  o <- d_object w v ;; keys <- d_keys w o ;; collect f o keys [].
(** array_from_own_keys, lines 458-491: [strings] or symbols *)
Definition own_keys (strings : bool) (v : val) : M (list pkey) :=
  o <- d_object w v ;; keys <- d_keys w o ;;
  ret (filter (fun k => if strings then is_string k else negb (is_string k)) keys).

(** rjs_object_assign *)
Fixpoint assign_loop (dst from : val) (keys : list pkey) : M unit :=
  match keys with
  | [] => ret tt
  | k :: keys =>
      r <- d_own w from k ;;
      match r with
      | Some d =>
          if is_enumerable d then
            v <- d_get w from k ;;
            ok <- d_set w dst k v ;;
            if ok then assign_loop dst from keys else throw TypeError
          else assign_loop dst from keys
      | None => assign_loop dst from keys
      end
  end.
Definition assign_one (dst src : val) : M unit :=
  if is_undef src || is_null src then ret tt
  else from <- d_object w src ;; keys <- d_keys w from ;; assign_loop dst from keys.
(** Object.assign, lines 53-89 *)
Fixpoint assign_all (dst : val) (srcs : list val) : M unit :=
  match srcs with [] => ret tt | s :: srcs => assign_one dst s ;;; assign_all dst srcs end.
Definition assign (target : val) (srcs : list val) : M val :=
  to <- d_object w target ;; assign_all to srcs ;;; ret to.

(** Object.getOwnPropertyDescriptor, lines 372-406: None is undefined *)
Definition get_descriptor (o p : val) : M (option (list (field * val))) :=
  obj <- d_object w o ;; k <- d_key w p ;; r <- d_own w obj k ;;
  ret (match r with Some d => Some (from_pd (load d fresh)) | None => None end).
(** Object.getOwnPropertyDescriptors, lines 408-456: one structure for all *)
Fixpoint descriptors_loop (o : val) (keys : list pkey) (pd : cdesc) (rv : list (pkey * list (field * val))) :
  M (list (pkey * list (field * val))) :=
  match keys with
  | [] => ret rv
  | k :: keys =>
      r <- d_own w o k ;;
      match r with
      | Some d => descriptors_loop o keys (load d pd) (rv ++ [(k, from_pd (load d pd))])
      | None => descriptors_loop o keys pd rv
      end
  end.
Definition get_descriptors (v : val) : M (list (pkey * list (field * val))) :=
  o <- d_object w v ;; keys <- d_keys w o ;; descriptors_loop o keys fresh [].

(** Object.prototype.toString, lines 978-1047 *)
Definition chars (s : string) : list Z := map (fun c => Z.of_nat (nat_of_ascii c)) (list_ascii_of_string s).
(** a zero ends the characters of C (strlen in rjs_char_buffer.c:102-103) *)
Fixpoint until_zero (l : list Z) : list Z :=
  match l with [] => [] | c :: l => if c =? 0 then [] else c :: until_zero l end.
Definition tag_text (tag : list Z) : list Z := chars "[object " ++ until_zero tag ++ chars "]".
Definition to_string (this : val) : M (list Z) :=
  if is_undef this then ret (tag_text (chars "Undefined"))
  else if is_null this then ret (tag_text (chars "Null"))
  else
    o <- d_object w this ;;
    a <- d_is_array w o ;;
    let tag := if a then chars "Array"
               else match d_kind w o with
                    | KArguments => chars "Arguments"
                    | k => if d_callable w o then chars "Function"
                           else match k with
                                | KBoolean => chars "Boolean" | KNumber => chars "Number" | KString => chars "String"
                                | KError => chars "Error" | KRegExp => chars "RegExp" | KDate => chars "Date"
                                | _ => chars "Object"
                                end
                    end in
    t <- d_tag w o ;;
    ret (tag_text (match t with Str s => s | _ => tag end)).
End S.
