(** Model of the 64-bit boxed value representation,
    include/ratjs/rjs_value.h:45-830.
    A value word (RJS_Value, uint64_t) and a pointer (8 bytes, size_t) are
    integers in 0 .. 2^64-1.  Reading and writing the native stack through
    rjs_value_get_pointer is the identity here. *)
From Coq Require Import ZArith List Bool.
Import ListNotations.
Local Open Scope Z_scope.

(** rjs_value.h:45-62 *)
Definition TAG_UNDEFINED : Z := 0x7ff9.
Definition TAG_NULL : Z := 0x7ffa.
Definition TAG_BOOLEAN : Z := 0x7ffb.
Definition TAG_STRING : Z := 0x7ffc.
Definition TAG_SYMBOL : Z := 0x7ffd.
Definition TAG_BIG_INT : Z := 0x7ffe.
Definition TAG_OBJECT : Z := 0xfff9.
Definition TAG_GC_THING : Z := 0xfffa.
Definition TAG_INDEX_STRING : Z := 0xfffb.

(** rjs_value_get_tag, rjs_value.h:142-146 *)
Definition get_tag (w : Z) : Z := Z.land (Z.shiftr w 48) 0xffff.
(** rjs_value_from_tag, rjs_value.h:149-153 *)
Definition from_tag (tag : Z) : Z := Z.shiftl tag 48.

Inductive vtype := TUndefined | TNull | TBoolean | TNumber | TString | TSymbol | TBigInt | TObject | TGcThing.

(** rjs_value_get_type, rjs_value.h:161-201 *)
Definition get_type (w : Z) : vtype :=
  let t := get_tag w in
  if t =? TAG_UNDEFINED then TUndefined
  else if t =? TAG_NULL then TNull
  else if t =? TAG_BOOLEAN then TBoolean
  else if (t =? TAG_STRING) || (t =? TAG_INDEX_STRING) then TString
  else if t =? TAG_SYMBOL then TSymbol
  else if t =? TAG_BIG_INT then TBigInt
  else if t =? TAG_OBJECT then TObject
  else if t =? TAG_GC_THING then TGcThing
  else TNumber.

(** rjs_value.h:208-246 *)
Definition set_undefined : Z := from_tag TAG_UNDEFINED.
Definition set_null : Z := from_tag TAG_NULL.
(** rjs_value.h:254-260 *)
Definition set_boolean (b : bool) : Z := Z.lor (from_tag TAG_BOOLEAN) (if b then 1 else 0).
(** rjs_value.h:268-274 *)
Definition set_number (n : Z) : Z := n.
(** rjs_value_set_gc_thing_tag, rjs_value.h:283-289 *)
Definition set_gc_thing_tag (p tag : Z) : Z := Z.lor (from_tag tag) (Z.land p 0xffffffffffff).
(** rjs_value_set_index_string, rjs_value.h:309-315 *)
Definition set_index_string (i : Z) : Z := Z.lor (from_tag TAG_INDEX_STRING) i.

(** rjs_value_get_boolean, rjs_value.h:375-381 *)
Definition get_boolean (w : Z) : bool := negb (Z.land w 1 =? 0).
(** rjs_value_get_number, rjs_value.h:389-395 *)
Definition get_number (w : Z) : Z := w.
(** rjs_value_pointer_get_gc_thing, rjs_value.h:403-417 *)
Definition get_gc_thing (w : Z) : Z :=
  let p := Z.land w 0xffffffffffff in
  if negb (Z.land p 0x800000000000 =? 0) then Z.lor p 0xffff000000000000 else p.
(** rjs_value_get_index_string, rjs_value.h:473-479 *)
Definition get_index_string (w : Z) : Z := Z.land w 0xffffffff.
(** rjs_value_is_index_string, rjs_value.h:656-662 *)
Definition is_index_string (w : Z) : bool := get_tag w =? TAG_INDEX_STRING.

(** rjs_gc_scan_value, rjs_value.h:773-792: the thing marked, if any *)
Definition gc_scan_value (w : Z) : option Z :=
  let t := get_tag w in
  if (t =? TAG_STRING) || (t =? TAG_SYMBOL) || (t =? TAG_BIG_INT) || (t =? TAG_OBJECT) || (t =? TAG_GC_THING)
  then Some (get_gc_thing w) else None.

(** Pointers into the native stack, rjs_value.h:70-98: a value pointer with the
    low bit set is a stack position. *)
Definition is_stack_pointer (p : Z) : bool := negb (Z.land p 1 =? 0).
Definition to_stack_pointer (p : Z) : Z := Z.shiftr p 1.
Definition stack_pointer_to_value (sp : Z) : Z := Z.lor (Z.shiftl sp 1 mod 2 ^ 64) 1.
(** rjs_value_buffer_item, rjs_value.h:129-141, for a stack pointer *)
Definition buffer_item (p : Z) (id : Z) : Z :=
  if is_stack_pointer p then stack_pointer_to_value ((to_stack_pointer p + id) mod 2 ^ 64) else (p + 8 * id) mod 2 ^ 64.

(** A JavaScript value (and internal things) to be stored; pointers and numbers
    are given by their bits. *)
Inductive jsval :=
| VUndefined | VNull | VBool (b : bool) | VNumber (n : Z) | VString (p : Z) | VIndexString (i : Z)
| VSymbol (p : Z) | VBigInt (p : Z) | VObject (p : Z) | VGcThing (p : Z).

(** the setter used for each kind *)
Definition box (v : jsval) : Z :=
  match v with
  | VUndefined => set_undefined
  | VNull => set_null
  | VBool b => set_boolean b
  | VNumber n => set_number n
  | VString p => set_gc_thing_tag p TAG_STRING
  | VIndexString i => set_index_string i
  | VSymbol p => set_gc_thing_tag p TAG_SYMBOL
  | VBigInt p => set_gc_thing_tag p TAG_BIG_INT
  | VObject p => set_gc_thing_tag p TAG_OBJECT
  | VGcThing p => set_gc_thing_tag p TAG_GC_THING
  end.

(** reading a word: dispatch on the type, then the getter *)
Definition unbox (w : Z) : jsval :=
  match get_type w with
  | TUndefined => VUndefined
  | TNull => VNull
  | TBoolean => VBool (get_boolean w)
  | TNumber => VNumber (get_number w)
  | TString => if is_index_string w then VIndexString (get_index_string w) else VString (get_gc_thing w)
  | TSymbol => VSymbol (get_gc_thing w)
  | TBigInt => VBigInt (get_gc_thing w)
  | TObject => VObject (get_gc_thing w)
  | TGcThing => VGcThing (get_gc_thing w)
  end.
