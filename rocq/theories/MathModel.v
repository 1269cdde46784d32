(** * The functions of Math and Number that the engine computes itself

    What is modelled: Math.clz32, imul, max, min, pow, random, round and sign
    (src/lib/rjs_math_object_inc.c), rjs_number_exponentiate
    (src/lib/rjs_number.c, 172-228), rjs_is_integral_number
    (include/ratjs/rjs_operation.h, 87-97) and Number.isFinite, isInteger, isNaN
    and isSafeInteger (src/lib/rjs_number_object_inc.c, 128-209).

    Simplifications.
    - A double is its pattern of 64 bits, as in NumModel.v.  The arguments are
      numbers already (ToNumber is in OpModel.v).
    - floor, fabs, trunc, ==, < and <= of C are exact.  The value [dval] of the
      pattern of an infinity is larger than that of every finite double, so that
      comparisons use it for infinities too.
    - pow of the C library is a parameter, used for finite operands only.
    - rand() is a parameter: a number from 0 to RAND_MAX (2^31 - 1 with glibc).
    - The functions that only call the C library (sin, log, ...) and Math.hypot
      are not modelled. *)
Require Import ZArith List Bool.
From Verif Require Import NumModel.
From Verif Require LexNumModel.
Import ListNotations.
Local Open Scope Z_scope.

Definition infinity : Z := 0x7ff0000000000000.
Definition neg_infinity : Z := 0xfff0000000000000.
Definition nan : Z := 0x7ff8000000000000.
Definition zero : Z := 0.
Definition neg_zero : Z := 0x8000000000000000.
Definition one : Z := 0x3ff0000000000000.
Definition half : Z := 0x3fe0000000000000.
Definition neg_half : Z := 0xbfe0000000000000.

(** [a < b], [a <= b], [a == b] of C; false if one is NaN *)
Definition ordered (a b : Z) : bool := negb (is_nan a) && negb (is_nan b).
Definition c_lt (a b : Z) : bool := ordered a b && (dval a <? dval b).
Definition c_le (a b : Z) : bool := ordered a b && (dval a <=? dval b).
Definition c_eq (a b : Z) : bool := ordered a b && (dval a =? dval b).

(** fabs, floor of the C library.  A double that is not an integer is smaller
    than 2^52, so its floor is the double of an integer. *)
Definition c_fabs (b : Z) : Z := b mod 2 ^ 63.
Definition c_floor (b : Z) : Z :=
  if is_nan b || is_inf b || (dval b mod unit =? 0) then b else dbl_of_int (dval b / unit).

(** The double nearest to z (both in units of 2^-1074), ties to even; far from
    overflow *)
Definition rnd (z : Z) : Z :=
  let a := Z.abs z in
  let e := Z.log2 a - 52 in
  if e <=? 0 then z else Z.sgn z * (LexNumModel.half_even a (2 ^ e) * 2 ^ e).

(** ** Maximum and minimum *)

(** rjs_math_object_inc.c: Math_max, the second loop *)
Fixpoint max_loop (max : Z) (l : list Z) : Z :=
  match l with
  | [] => max
  | n :: r =>
      if is_nan n then nan
      else
        max_loop
          (if c_eq n zero && c_eq max zero && negb (dsign n) && dsign max then zero
           else if c_lt max n then n else max) r
  end.
Definition math_max (l : list Z) : Z := max_loop neg_infinity l.

(** Math_min, the second loop *)
Fixpoint min_loop (min : Z) (l : list Z) : Z :=
  match l with
  | [] => min
  | n :: r =>
      if is_nan n then nan
      else
        min_loop
          (if c_eq n zero && c_eq min zero && dsign n && negb (dsign min) then neg_zero
           else if c_lt n min then n else min) r
  end.
Definition math_min (l : list Z) : Z := min_loop infinity l.

(** ** Rounding and classification *)

(** Math_round.  [i + 1] is exact: |i| is smaller than 2^52 here. *)
Definition math_round (n : Z) : Z :=
  let i := c_floor n in
  if negb (is_inf n) && negb (is_nan n) && negb (c_eq i n) then
    if negb (dsign n) && c_lt n half && c_le zero n then zero
    else if dsign n && c_le n zero && c_le neg_half n then neg_zero
    else if rnd (dval n - dval i) <? dval half then i
    else dbl_of_int (dval i / unit + 1)
  else n.

(** Math_sign *)
Definition math_sign (n : Z) : Z :=
  if is_nan n || c_eq n zero then n
  else if c_lt n zero then dbl_of_int (-1)
  else dbl_of_int 1.

(** rjs_is_integral_number, rjs_operation.h:87-97 *)
Definition is_integral_number (n : Z) : bool :=
  if is_nan n || is_inf n then false
  else let a := c_fabs n in c_eq (c_floor a) a.

(** Number_isFinite, Number_isNaN, rjs_number_object_inc.c:128-146, 164-182 *)
Definition number_is_finite (n : Z) : bool := negb (is_inf n || is_nan n).
Definition number_is_nan (n : Z) : bool := is_nan n.

(** Number_isSafeInteger, rjs_number_object_inc.c:184-209 *)
Definition number_is_safe_integer (n : Z) : bool :=
  if is_inf n || is_nan n then false
  else if negb (dtrunc n * unit =? dval n) then false
  else c_le (c_fabs n) (dbl_of_int 9007199254740991).

(** ** 32-bit integers; [None]: undefined behaviour of the conversion (C35) *)

(** The loop of Math_clz32: the mask is 2^(k-1). *)
Fixpoint clz_loop (k : nat) (n : Z) : Z :=
  match k with
  | O => 0
  | S k' => if Z.land n (2 ^ Z.of_nat k') =? 0 then 1 + clz_loop k' n else 0
  end.
Definition math_clz32 (x : Z) : option Z :=
  match rjs_to_uint32 x with Some n => Some (clz_loop 32 n) | None => None end.

(** Math_imul *)
Definition math_imul (x y : Z) : option Z :=
  match rjs_to_uint32 x, rjs_to_uint32 y with
  | Some a, Some b => Some (to_signed 32 (a * b mod 2 ^ 32))
  | _, _ => None
  end.

(** ** Powers *)

Section power.

Variable pow : Z -> Z -> Z.

(** [rjs_is_integral_number(n2) && (((int64_t)n2) & 1)] *)
Definition is_odd (n : Z) : option bool :=
  if is_integral_number n then
    match cast_int64 n with Some i => Some (negb (Z.land i 1 =? 0)) | None => None end
  else Some false.

(** rjs_number_exponentiate, rjs_number.c:172-228; [None]: undefined behaviour *)
Definition exponentiate (n1 n2 : Z) : option Z :=
  if is_nan n2 then Some nan
  else if c_eq n2 zero then Some one
  else if is_nan n1 then Some nan
  else if c_eq n1 infinity then Some (if c_lt zero n2 then infinity else zero)
  else if c_eq n1 neg_infinity then
    match is_odd n2 with
    | None => None
    | Some odd =>
        Some (if c_lt zero n2 then (if odd then neg_infinity else infinity)
              else if odd then neg_zero else zero)
    end
  else if c_eq n1 zero then
    if dsign n1 then
      match is_odd n2 with
      | None => None
      | Some odd =>
          Some (if c_lt zero n2 then (if odd then neg_zero else zero)
                else if odd then neg_infinity else infinity)
      end
    else Some (if c_lt zero n2 then zero else infinity)
  else if c_eq n2 infinity then
    let a := c_fabs n1 in
    Some (if c_lt one a then infinity else if c_eq a one then nan else zero)
  else if c_eq n2 neg_infinity then
    let a := c_fabs n1 in
    Some (if c_lt one a then zero else if c_eq a one then nan else infinity)
  else Some (pow n1 n2).

End power.

(** ** Random numbers *)

Definition rand_max : Z := 2147483647.
(** Math_random: the quotient of the two doubles, [r] is what rand() gave *)
Definition math_random (r : Z) : LexNumModel.num := LexNumModel.to_double false r rand_max.
