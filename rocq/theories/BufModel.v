(** Model of element access in raw buffers,
    src/lib/rjs_array_buffer_opt.c:284-722.
    A byte buffer is a [list Z] of values 0..255; access outside it is the
    outcome [SUB].  Numbers are double patterns (NumModel.v), BigInts the model
    of BigModel.v.
    [b[3] << 24] with b[3] >= 128 overflows int in C11; gcc's result (the bits)
    is modelled.  Shared-memory interleavings are not part of this model. *)
From Coq Require Import ZArith List Bool.
Import ListNotations.
From Verif Require Import StrModel NumModel BigModel.
Local Open Scope Z_scope.

(** RJS_ArrayElementType *)
Inductive etype := UINT8 | UINT8C | INT8 | UINT16 | INT16 | UINT32 | INT32 | BIGUINT64 | BIGINT64 | FLOAT32 | FLOAT64.

(** rjs_typed_array_element_size *)
Definition esize (t : etype) : nat :=
  match t with
  | UINT8 | UINT8C | INT8 => 1
  | UINT16 | INT16 => 2
  | UINT32 | INT32 | FLOAT32 => 4
  | BIGUINT64 | BIGINT64 | FLOAT64 => 8
  end.

(** Number or BigInt *)
Inductive jnum := JNum (b : Z) | JBig (b : bi).

(** C's NAN *)
Definition NAN : Z := 0x7ff8000000000000.

(** b[0] | b[1] << 8 | b[2] << 16 ... (little endian); big endian takes the
    bytes in reverse order. *)
Fixpoint le_word (bs : list Z) : Z :=
  match bs with [] => 0 | b :: t => Z.lor b (Z.shiftl (le_word t) 8) end.
Definition word (is_le : bool) (bs : list Z) : Z := le_word (if is_le then bs else rev bs).

(** the stores b[i] = v >> (8 * i) *)
Definition le_bytes (n : nat) (v : Z) : list Z :=
  map (fun i => Z.shiftr v (8 * Z.of_nat i) mod 256) (seq 0 n).
Definition bytes (is_le : bool) (n : nat) (v : Z) : list Z :=
  if is_le then le_bytes n v else rev (le_bytes n v).

(** Single precision patterns. *)
Definition fsign (f : Z) : bool := 2 ^ 31 <=? f.
Definition fexp (f : Z) : Z := f / 2 ^ 23 mod 2 ^ 8.
Definition fman (f : Z) : Z := f mod 2 ^ 23.
Definition f_is_nan (f : Z) : bool := (fexp f =? 255) && negb (fman f =? 0).

(** Conversion of a float that is not NaN to double: exact. *)
Definition float_to_double (f : Z) : Z :=
  (if fsign f then 2 ^ 63 else 0) +
  (if fexp f =? 255 then 2047 * 2 ^ 52
   else if fexp f =? 0 then
     if fman f =? 0 then 0
     else let l := Z.log2 (fman f) in (l + 874) * 2 ^ 52 + (fman f * 2 ^ (52 - l) - 2 ^ 52)
   else (fexp f + 896) * 2 ^ 52 + fman f * 2 ^ 29).

(** Conversion of a double to float: round to nearest, ties to even (C11 Annex F).
    A NaN becomes a quiet NaN with the leading payload bits. *)
Definition round_half_even (a g : Z) : Z :=
  let q := a / g in
  let r := a mod g in
  if 2 * r <? g then q
  else if g <? 2 * r then q + 1
  else if Z.even q then q else q + 1.
Definition double_to_float (d : Z) : Z :=
  (if dsign d then 2 ^ 31 else 0) +
  (if is_nan d then 0x7fc00000 + (dman d / 2 ^ 29) mod 2 ^ 22
   else if is_inf d then 0x7f800000
   else
     let m := dmag d in
     let g := Z.max (Z.log2 m - 23) 925 in
     Z.min ((g - 925) * 2 ^ 23 + round_half_even m (2 ^ g)) 0x7f800000).

(** rjs_get_value_from_raw, rjs_array_buffer_opt.c:295-441, on the bytes of the
    element.  The unused rjs_big_int_to_int64 of line 393 is also executed. *)
Definition get_raw (t : etype) (is_le : bool) (bs : list Z) : sres jnum :=
  let u := word is_le bs in
  match t with
  | UINT8 | UINT8C | UINT16 | UINT32 => SOk (JNum (dbl_of_int u))
  | INT8 => SOk (JNum (dbl_of_int (to_signed 8 u)))
  | INT16 => SOk (JNum (dbl_of_int (to_signed 16 u)))
  | INT32 => SOk (JNum (dbl_of_int (to_signed 32 u)))
  | BIGUINT64 => SOk (JBig (from_uint64 u))
  | BIGINT64 => match from_int64 (to_signed 64 u) with
                | None => SUB
                | Some b => match to_int64 b with None => SUB | Some _ => SOk (JBig b) end
                end
  | FLOAT32 => SOk (JNum (if f_is_nan u then NAN else float_to_double u))
  | FLOAT64 => SOk (JNum (if is_nan u then NAN else u))
  end.

Definition of_opt (o : option Z) : sres Z := match o with Some z => SOk z | None => SUB end.

(** The integer whose bytes rjs_set_value_in_raw stores,
    rjs_array_buffer_opt.c:456-655.  A Number for a BigInt type or the other way
    round never arrives here (callers convert first): [SUB]. *)
Definition raw_word (t : etype) (v : jnum) : sres Z :=
  match t, v with
  | UINT8, JNum b => of_opt (rjs_to_uint8 b)
  | UINT8C, JNum b => SOk (rjs_to_uint8_clamp b)
  | INT8, JNum b => of_opt (rjs_to_int8 b)
  | UINT16, JNum b => of_opt (rjs_to_uint16 b)
  | INT16, JNum b => of_opt (rjs_to_int16 b)
  | UINT32, JNum b => of_opt (rjs_to_uint32 b)
  | INT32, JNum b => of_opt (rjs_to_int32 b)
  | FLOAT32, JNum b => SOk (double_to_float b)
  | FLOAT64, JNum b => SOk b
  | BIGUINT64, JBig b => of_opt (to_uint64 b)
  | BIGINT64, JBig b => of_opt (to_int64 b)
  | _, _ => SUB
  end.

Definition set_raw (t : etype) (is_le : bool) (v : jnum) : sres (list Z) :=
  do w <- raw_word t v; SOk (bytes is_le (esize t) w).

(** rjs_get_value_from_buffer, rjs_array_buffer_opt.c:669-689 *)
Definition get_value (buf : list Z) (off : nat) (t : etype) (is_le : bool) : sres jnum :=
  if (off + esize t <=? length buf)%nat
  then get_raw t is_le (firstn (esize t) (skipn off buf))
  else SUB.

(** rjs_set_value_in_buffer, rjs_array_buffer_opt.c:702-722 *)
Definition set_value (buf : list Z) (off : nat) (t : etype) (v : jnum) (is_le : bool) : sres (list Z) :=
  if (off + esize t <=? length buf)%nat
  then do bs <- set_raw t is_le v; SOk (firstn off buf ++ bs ++ skipn (off + esize t) buf)
  else SUB.
