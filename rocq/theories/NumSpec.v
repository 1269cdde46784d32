(** Doubles and integer conversions, stated from the IEEE 754 encoding and the
    ECMAScript definitions, independently of the model. *)
From Coq Require Import ZArith.
Local Open Scope Z_scope.

(** [double b s m e]: the pattern [b] encodes the finite number
    (-1)^s * m * 2^e. *)
Inductive double : Z -> bool -> Z -> Z -> Prop :=
| Dnormal : forall (s : bool) E M, 1 <= E <= 2046 -> 0 <= M < 2 ^ 52 ->
    double ((if s then 1 else 0) * 2 ^ 63 + E * 2 ^ 52 + M) s (2 ^ 52 + M) (E - 1075)
| Dsubnormal : forall (s : bool) M, 0 <= M < 2 ^ 52 ->
    double ((if s then 1 else 0) * 2 ^ 63 + M) s M (- 1074).

(** infinities and NaNs *)
Definition infinite (b : Z) (s : bool) : Prop := b = (if s then 1 else 0) * 2 ^ 63 + 2047 * 2 ^ 52.
Definition nan (b : Z) : Prop :=
  exists s M, 0 < M < 2 ^ 52 /\ b = (if s : bool then 1 else 0) * 2 ^ 63 + 2047 * 2 ^ 52 + M.

(** m * 2^e without its fraction *)
Definition whole (m e : Z) : Z := if 0 <=? e then m * 2 ^ e else m / 2 ^ (- e).
Definition with_sign (s : bool) (z : Z) : Z := if s then - z else z.

(** [r] is the member of the residue class of [t] modulo 2^k in the unsigned /
    two's complement range *)
Definition modular_u (k t r : Z) : Prop := 0 <= r < 2 ^ k /\ exists q, t = r + q * 2 ^ k.
Definition modular_s (k t r : Z) : Prop := - 2 ^ (k - 1) <= r < 2 ^ (k - 1) /\ exists q, t = r + q * 2 ^ k.

(** ToInt32 etc. of a number: [t] is the truncated number (0 for NaN and the
    infinities). *)
Inductive truncated (b : Z) : Z -> Prop :=
| Tfinite : forall s m e, double b s m e -> truncated b (with_sign s (whole m e))
| Tinf : forall s, infinite b s -> truncated b 0
| Tnan : nan b -> truncated b 0.

(** [r] is the integer nearest to m * 2^e (e >= -1074), the even one if two are
    equally near.  All sides are scaled by 2^1074. *)
Definition nearest_even (m e r : Z) : Prop :=
  let v := m * 2 ^ (e + 1074) in
  let d := 2 * Z.abs (v - r * 2 ^ 1074) in
  d <= 2 ^ 1074 /\ (d = 2 ^ 1074 -> Z.even r = true).
