(** * What the functions of Math and Number give

    Numbers are what the patterns of IEEE 754 mean (NumSpec.v).  From ECMA-262:
    6.1.6.1.3 Number::exponentiate, 21.1.2 (Number.isFinite ...), 21.3.2 (Math). *)
Require Import ZArith List Bool.
From Verif Require Import NumSpec.
Import ListNotations.
Local Open Scope Z_scope.

(** A number value; finite ones are (-1)^s * v * 2^-1074 *)
Inductive number := XNaN | XInf (s : bool) | XFin (s : bool) (v : Z).

Inductive reads (b : Z) : number -> Prop :=
| r_fin s m e : double b s m e -> reads b (XFin s (m * 2 ^ (e + 1074)))
| r_inf s : infinite b s -> reads b (XInf s)
| r_nan : nan b -> reads b XNaN.

Definition one_unit : Z := 2 ^ 1074.
Definition int (z : Z) : number := XFin (z <? 0) (Z.abs z * one_unit).

(** The order of max and min: -0 is less than +0. *)
Definition below (x y : number) : Prop :=
  match x, y with
  | XNaN, _ | _, XNaN => False
  | XInf true, _ => True
  | _, XInf false => True
  | XFin s v, XFin t w =>
      with_sign s v < with_sign t w \/ with_sign s v = with_sign t w /\ (s = true \/ t = false)
  | _, _ => False
  end.

(** Math.max: NaN if one argument is; -Infinity without arguments; otherwise the
    argument not below another one *)
Definition greatest (l : list number) (r : number) : Prop :=
  (In XNaN l /\ r = XNaN) \/
  (~ In XNaN l /\ In r (XInf true :: l) /\ Forall (fun x => below x r) l).
Definition least (l : list number) (r : number) : Prop :=
  (In XNaN l /\ r = XNaN) \/
  (~ In XNaN l /\ In r (XInf false :: l) /\ Forall (fun x => below r x) l).

(** Math.round: the integer nearest to x, upwards in the middle: floor (x + 1/2),
    with the sign of x *)
Definition rounded (x r : number) : Prop :=
  match x with
  | XFin s v => r = XFin s (Z.abs ((2 * with_sign s v + one_unit) / (2 * one_unit)) * one_unit)
  | _ => r = x
  end.

(** Math.sign *)
Definition sign_of (x r : number) : Prop :=
  match x with
  | XNaN => r = XNaN
  | XInf s => r = int (if s then -1 else 1)
  | XFin s v => r = if v =? 0 then x else int (if s then -1 else 1)
  end.

Definition integral (x : number) : Prop := exists s z, x = XFin s (z * one_unit).
Definition safe_integral (x : number) : Prop :=
  exists s z, x = XFin s (z * one_unit) /\ - (2 ^ 53 - 1) <= z <= 2 ^ 53 - 1.
Definition odd_integral (x : number) : Prop :=
  exists s z, x = XFin s (z * one_unit) /\ Z.odd z = true.

(** The number of leading zero bits of a 32-bit number *)
Definition leading_zeros (n r : Z) : Prop :=
  0 <= r <= 32 /\ 0 <= n < 2 ^ (32 - r) /\ (r = 32 \/ 2 ^ (31 - r) <= n).

(** Number::exponentiate; [approx] is the implementation-approximated value. *)
Definition positive (x : number) : Prop := x = XInf false \/ exists v, 0 < v /\ x = XFin false v.
Definition negative (x : number) : Prop := x = XInf true \/ exists v, 0 < v /\ x = XFin true v.
(** how |x| (finite) compares with 1 *)
Definition magnitude (x : number) (c : comparison) : Prop :=
  exists s v, x = XFin s v /\ (v ?= one_unit) = c.

Inductive power (approx : number -> number -> number -> Prop) : number -> number -> number -> Prop :=
| p_nan b : power approx b XNaN XNaN
| p_zero b s : power approx b (XFin s 0) (int 1)
| p_base_nan e : (forall s, e <> XFin s 0) -> power approx XNaN e XNaN
| p_inf_pos e : positive e -> power approx (XInf false) e (XInf false)
| p_inf_neg e : negative e -> power approx (XInf false) e (XFin false 0)
| p_ninf_odd e : positive e -> odd_integral e -> power approx (XInf true) e (XInf true)
| p_ninf_even e : positive e -> ~ odd_integral e -> power approx (XInf true) e (XInf false)
| p_ninf_neg_odd e : negative e -> odd_integral e -> power approx (XInf true) e (XFin true 0)
| p_ninf_neg_even e : negative e -> ~ odd_integral e -> power approx (XInf true) e (XFin false 0)
| p_zero_pos e : positive e -> power approx (XFin false 0) e (XFin false 0)
| p_zero_neg e : negative e -> power approx (XFin false 0) e (XInf false)
| p_nzero_odd e : positive e -> odd_integral e -> power approx (XFin true 0) e (XFin true 0)
| p_nzero_even e : positive e -> ~ odd_integral e -> power approx (XFin true 0) e (XFin false 0)
| p_nzero_neg_odd e : negative e -> odd_integral e -> power approx (XFin true 0) e (XInf true)
| p_nzero_neg_even e : negative e -> ~ odd_integral e -> power approx (XFin true 0) e (XInf false)
| p_big b : magnitude b Gt -> power approx b (XInf false) (XInf false)
| p_one b s : magnitude b Eq -> power approx b (XInf s) XNaN
| p_small b : magnitude b Lt -> b <> XFin false 0 -> b <> XFin true 0 ->
    power approx b (XInf false) (XFin false 0)
| p_big_neg b : magnitude b Gt -> power approx b (XInf true) (XFin false 0)
| p_small_neg b : magnitude b Lt -> b <> XFin false 0 -> b <> XFin true 0 ->
    power approx b (XInf true) (XInf false)
| p_finite s v t w r : 0 < v -> 0 < w ->
    (s = true -> ~ integral (XFin t w) -> r = XNaN) ->
    (s = false \/ integral (XFin t w) -> approx (XFin s v) (XFin t w) r) ->
    power approx (XFin s v) (XFin t w) r.
