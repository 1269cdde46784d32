(** Element conversions, independent of the model. *)
From Coq Require Import ZArith List.
Import ListNotations.
From Verif Require Import NumSpec.
Local Open Scope Z_scope.

Definition is_byte (b : Z) : Prop := 0 <= b < 256.

(** the number written in base 256, least significant byte first *)
Definition little (bs : list Z) : Z := fold_right (fun b a => b + 256 * a) 0 bs.
(** the bytes of an element, least significant first *)
Definition in_order {A} (is_le : bool) (bs : list A) : list A := if is_le then bs else rev bs.

(** the double [d] is the integer [r] (+0 for 0) *)
Definition int_double (d r : Z) : Prop :=
  (r = 0 /\ d = 0) \/
  (r <> 0 /\ exists s m e, double d s m e /\ with_sign s (m * 2 ^ (e + 1074)) = r * 2 ^ 1074).

(** single precision encoding: the pattern [f] is (-1)^s * m * 2^e *)
Inductive single_bits : Z -> bool -> Z -> Z -> Prop :=
| Fnormal : forall (s : bool) E M, 1 <= E <= 254 -> 0 <= M < 2 ^ 23 ->
    single_bits ((if s then 1 else 0) * 2 ^ 31 + E * 2 ^ 23 + M) s (2 ^ 23 + M) (E - 150)
| Fsubnormal : forall (s : bool) M, 0 <= M < 2 ^ 23 ->
    single_bits ((if s then 1 else 0) * 2 ^ 31 + M) s M (- 149).
Definition single_inf (f : Z) (s : bool) : Prop := f = (if s then 1 else 0) * 2 ^ 31 + 255 * 2 ^ 23.
Definition single_nan (f : Z) : Prop :=
  exists s M, 0 < M < 2 ^ 23 /\ f = (if s : bool then 1 else 0) * 2 ^ 31 + 255 * 2 ^ 23 + M.

(** exact values, in units of 2^-1074 *)
Definition exact (b v : Z) : Prop := exists s m e, double b s m e /\ v = with_sign s (m * 2 ^ (e + 1074)).

(** v (in these units) is a single precision number: m * 2^e with at most 24
    significant bits, -149 <= e <= 104 *)
Definition single (v : Z) : Prop :=
  exists s m e, 0 <= m < 2 ^ 24 /\ -149 <= e <= 104 /\ v = with_sign s (m * 2 ^ (e + 1074)).
(** ... with an even significand *)
Definition single_even (v : Z) : Prop :=
  exists s m e, 0 <= m < 2 ^ 24 /\ -149 <= e <= 104 /\ (e = -149 \/ 2 ^ 23 <= m) /\
                v = with_sign s (m * 2 ^ (e + 1074)) /\ Z.even m = true.

(** [r] is the single precision number nearest to [v] *)
Definition nearest_single (v r : Z) : Prop :=
  single r /\ forall x, single x ->
    Z.abs (v - r) <= Z.abs (v - x) /\ (Z.abs (v - r) = Z.abs (v - x) -> x <> r -> single_even r).

(** the least magnitude that rounds to infinity: (2 - 2^-24) * 2^127 *)
Definition single_limit : Z := (2 ^ 25 - 1) * 2 ^ (103 + 1074).

(** Math.fround: [d] is the double obtained from the double [b] *)
Inductive frounded (b d : Z) : Prop :=
| Fr_nan : nan b -> d = 0x7ff8000000000000 -> frounded b d
| Fr_inf : forall s, infinite b s -> infinite d s -> frounded b d
| Fr_over : forall s m e, double b s m e -> single_limit <= m * 2 ^ (e + 1074) -> infinite d s -> frounded b d
| Fr_near : forall s m e m' e', double b s m e -> m * 2 ^ (e + 1074) < single_limit ->
    double d s m' e' ->
    nearest_single (with_sign s (m * 2 ^ (e + 1074))) (with_sign s (m' * 2 ^ (e' + 1074))) -> frounded b d.
