(** Model of numbers and of the integer conversions.
    Source: include/ratjs/rjs_operation.h:704-1070, src/lib/rjs_number.c:27-160,
    src/lib/rjs_operation.c:164-197, include/ratjs/rjs_value.h.

    A number (RJS_Number, IEEE 754 double) is its 64-bit pattern, a [Z] in
    0 .. 2^64-1.  Its finite values are handled exactly: [dval] is the value in
    units of 2^-1074, the distance of the least positive double from 0.
    Conversions of doubles to integer types outside the range of the type are
    undefined behaviour, the outcome [None].
    Conversion of arbitrary JavaScript values to numbers (user code) is done
    before; the models take the number.  Integer results are [Z]. *)
From Coq Require Import ZArith List Bool.
Import ListNotations.
From Verif Require Import StrModel.
Local Open Scope Z_scope.

(** The fields of a double. *)
Definition dsign (b : Z) : bool := 2 ^ 63 <=? b.
Definition dexp (b : Z) : Z := b / 2 ^ 52 mod 2 ^ 11.
Definition dman (b : Z) : Z := b mod 2 ^ 52.

(** isnan, isinf, signbit of the C library *)
Definition is_nan (b : Z) : bool := (dexp b =? 2047) && negb (dman b =? 0).
Definition is_inf (b : Z) : bool := (dexp b =? 2047) && (dman b =? 0).

(** Magnitude and value of a finite double in units of 2^-1074. *)
Definition dmag (b : Z) : Z :=
  if dexp b =? 0 then dman b else (2 ^ 52 + dman b) * 2 ^ (dexp b - 1).
Definition dval (b : Z) : Z := if dsign b then - dmag b else dmag b.
Definition unit : Z := 2 ^ 1074.

(** [n == 0] *)
Definition is_zero (b : Z) : bool := (dexp b =? 0) && (dman b =? 0).

(** (int64_t)n, (uint32_t)n: the fraction is discarded; undefined if the result
    does not fit (C11 6.3.1.4). *)
Definition dtrunc (b : Z) : Z := Z.quot (dval b) unit.
Definition cast_int64 (b : Z) : option Z :=
  if is_nan b || is_inf b then None
  else let t := dtrunc b in
       if (- 2 ^ 63 <=? t) && (t <? 2 ^ 63) then Some t else None.
Definition cast_uint32 (b : Z) : option Z :=
  if is_nan b || is_inf b then None
  else let t := dtrunc b in
       if (0 <=? t) && (t <? 2 ^ 32) then Some t else None.

(** Assignment of an int64_t to a narrower integer: the low bits, read as
    unsigned or as two's complement (gcc). *)
Definition to_unsigned (k : Z) (i : Z) : Z := i mod 2 ^ k.
Definition to_signed (k : Z) (i : Z) : Z := (i + 2 ^ (k - 1)) mod 2 ^ k - 2 ^ (k - 1).

(** The common body of rjs_to_int8 .. rjs_to_uint32, rjs_operation.h:734-911 *)
Definition to_int_with (conv : Z -> Z) (b : Z) : option Z :=
  if is_nan b || is_inf b || is_zero b then Some 0
  else match cast_int64 b with Some i => Some (conv i) | None => None end.

(** rjs_operation.h:734-754 *)
Definition rjs_to_int8 := to_int_with (to_signed 8).
(** rjs_operation.h:764-784 *)
Definition rjs_to_uint8 := to_int_with (to_unsigned 8).
(** rjs_operation.h:834-854 *)
Definition rjs_to_int16 := to_int_with (to_signed 16).
(** rjs_operation.h:864-884 *)
Definition rjs_to_uint16 := to_int_with (to_unsigned 16).
(** rjs_operation.h:894-914 *)
Definition rjs_to_int32 := to_int_with (to_signed 32).
(** rjs_operation.h:924-944 *)
Definition rjs_to_uint32 := to_int_with (to_unsigned 32).

(** rjs_to_uint8_clamp, rjs_operation.h:794-824.  [f + 0.5] is exact for the
    f <= 255 that occur; comparisons are done on doubled values. *)
Definition rjs_to_uint8_clamp (b : Z) : Z :=
  if is_nan b then 0
  else if is_inf b then (if dsign b then 0 else 255)
  else
    let v := dval b in
    if v <? 0 then 0
    else if 255 * unit <? v then 255
    else
      let f := v / unit in
      if (2 * f + 1) * unit <? 2 * v then f + 1
      else if 2 * v <? (2 * f + 1) * unit then f
      else if Z.odd f then f + 1
      else f.

(** rjs_to_integer_or_infinity, rjs_operation.h:703-726: [- floor (- n)] for
    negative, [floor n] for other numbers. *)
Definition to_integer_or_infinity (b : Z) : num :=
  if is_nan b then Fin 0
  else if is_inf b then (if dsign b then NInf else PInf)
  else let v := dval b in
       if v <? 0 then Fin (- ((- v) / unit)) else Fin (v / unit).

(** rjs_to_index, rjs_operation.c:164-197; [None] = the argument is undefined,
    the result [None] is the RangeError.  rjs_to_length is in StrModel.v. *)
Definition rjs_to_index (v : option Z) : option Z :=
  match v with
  | None => Some 0
  | Some b =>
      let n := to_integer_or_infinity b in
      let clamped := to_length n in
      match n with
      | Fin z => if z =? clamped then Some clamped else None
      | _ => None
      end
  end.

(** The double of an integer |z| < 2^53 (conversion of int32_t, uint32_t ... to
    double is exact). *)
Definition dbl_of_int (z : Z) : Z :=
  if z =? 0 then 0
  else
    let a := Z.abs z in
    let l := Z.log2 a in
    (if z <? 0 then 2 ^ 63 else 0) + (l + 1023) * 2 ^ 52 + (a * 2 ^ (52 - l) - 2 ^ 52).

(** ** Operators, src/lib/rjs_number.c *)

(** rjs_number.c:33-41 *)
Definition number_bitwise_not (v : Z) : option Z :=
  match rjs_to_int32 v with Some i => Some (- i - 1) | None => None end.

Definition bind2 (x y : option Z) (f : Z -> Z -> option Z) : option Z :=
  match x, y with Some a, Some b => f a b | _, _ => None end.

(** rjs_number.c:50-63.  [<<] on a negative or overflowing int32_t is undefined
    in C11; gcc documents that it shifts the bits, which is modelled. *)
Definition number_left_shift (v1 v2 : Z) : option Z :=
  bind2 (rjs_to_int32 v1) (rjs_to_uint32 v2) (fun n1 n2 =>
    Some (to_signed 32 (n1 * 2 ^ (Z.land n2 31)))).

(** rjs_number.c:72-85 *)
Definition number_signed_right_shift (v1 v2 : Z) : option Z :=
  bind2 (rjs_to_int32 v1) (rjs_to_uint32 v2) (fun n1 n2 =>
    Some (Z.shiftr n1 (Z.land n2 31))).

(** rjs_number.c:94-102: the doubles are cast to uint32_t directly and the count
    is not reduced; a shift by 32 or more is undefined. *)
Definition number_unsigned_right_shift (v1 v2 : Z) : option Z :=
  bind2 (cast_uint32 v1) (cast_uint32 v2) (fun n1 n2 =>
    if n2 <? 32 then Some (Z.shiftr n1 n2) else None).

(** rjs_number.c:111-122, 131-142, 151-162 *)
Definition number_bitwise_and (v1 v2 : Z) : option Z :=
  bind2 (rjs_to_int32 v1) (rjs_to_int32 v2) (fun n1 n2 => Some (Z.land n1 n2)).
Definition number_bitwise_xor (v1 v2 : Z) : option Z :=
  bind2 (rjs_to_int32 v1) (rjs_to_int32 v2) (fun n1 n2 => Some (Z.lxor n1 n2)).
Definition number_bitwise_or (v1 v2 : Z) : option Z :=
  bind2 (rjs_to_int32 v1) (rjs_to_int32 v2) (fun n1 n2 => Some (Z.lor n1 n2)).
