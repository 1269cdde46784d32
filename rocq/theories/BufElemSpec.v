(** The elements of typed arrays and data views, from the ECMAScript tables;
    only the data types of the model are used. *)
From Coq Require Import ZArith List Bool.
From Verif Require Import NumSpec BufSpec BigModel BigSpec BufModel.
Local Open Scope Z_scope.

(** the integer element types: width and signedness *)
Definition int_type (t : etype) : option (Z * bool) :=
  match t with
  | UINT8 => Some (8, false) | INT8 => Some (8, true)
  | UINT16 => Some (16, false) | INT16 => Some (16, true)
  | UINT32 => Some (32, false) | INT32 => Some (32, true)
  | _ => None
  end.
Definition modular (k : Z) (signed : bool) : Z -> Z -> Prop := if signed then modular_s k else modular_u k.

(** ToUint8Clamp *)
Inductive clamped (b : Z) : Z -> Prop :=
| Cl_nan : nan b -> clamped b 0
| Cl_ninf : infinite b true -> clamped b 0
| Cl_pinf : infinite b false -> clamped b 255
| Cl_low : forall s m e, double b s m e -> with_sign s (m * 2 ^ (e + 1074)) <= 0 -> clamped b 0
| Cl_high : forall s m e, double b s m e -> 255 * 2 ^ 1074 <= with_sign s (m * 2 ^ (e + 1074)) -> clamped b 255
| Cl_near : forall m e r, double b false m e -> 0 <= m * 2 ^ (e + 1074) <= 255 * 2 ^ 1074 ->
    0 <= r <= 255 -> nearest_even m e r -> clamped b r.

(** [w] is the value read back after [v] was stored in an element of type [t] *)
Inductive converted : etype -> jnum -> jnum -> Prop :=
| Cv_int : forall t k sg b n r d, int_type t = Some (k, sg) -> truncated b n -> modular k sg n r -> int_double d r ->
    converted t (JNum b) (JNum d)
| Cv_clamp : forall b r d, clamped b r -> int_double d r -> converted UINT8C (JNum b) (JNum d)
| Cv_f32 : forall b d, frounded b d -> converted FLOAT32 (JNum b) (JNum d)
| Cv_f64 : forall b, ~ nan b -> converted FLOAT64 (JNum b) (JNum b)
| Cv_nan : forall b, nan b -> converted FLOAT64 (JNum b) (JNum 0x7ff8000000000000)
| Cv_u64 : forall x y, normal y -> modular_u 64 (value x) (value y) -> converted BIGUINT64 (JBig x) (JBig y)
| Cv_s64 : forall x y, normal y -> modular_s 64 (value x) (value y) -> converted BIGINT64 (JBig x) (JBig y).

(** [v] is the element of type [t] whose bytes make the unsigned integer [u] *)
Inductive element : etype -> Z -> jnum -> Prop :=
| El_int : forall t k sg u r d, int_type t = Some (k, sg) -> modular k sg u r -> int_double d r -> element t u (JNum d)
| El_clamp : forall u d, int_double d u -> element UINT8C u (JNum d)
| El_f32 : forall u s m e d m' e', single_bits u s m e -> double d s m' e' ->
    m' * 2 ^ (e' + 1074) = m * 2 ^ (e + 1074) -> element FLOAT32 u (JNum d)
| El_f32_inf : forall u s d, single_inf u s -> infinite d s -> element FLOAT32 u (JNum d)
| El_f32_nan : forall u, single_nan u -> element FLOAT32 u (JNum 0x7ff8000000000000)
| El_f64 : forall u, ~ nan u -> element FLOAT64 u (JNum u)
| El_f64_nan : forall u, nan u -> element FLOAT64 u (JNum 0x7ff8000000000000)
| El_u64 : forall u y, normal y -> value y = u -> element BIGUINT64 u (JBig y)
| El_s64 : forall u y, normal y -> modular_s 64 u (value y) -> element BIGINT64 u (JBig y).

(** a value of the kind an element of type [t] takes *)
Definition well_typed (t : etype) (v : jnum) : Prop :=
  match t, v with
  | (BIGUINT64 | BIGINT64), JBig x => normal x
  | (BIGUINT64 | BIGINT64), JNum _ => False
  | _, JNum b => 0 <= b < 2 ^ 64
  | _, JBig _ => False
  end.

(** where the C conversions are defined *)
Definition defined_for (t : etype) (v : jnum) : Prop :=
  match t, v with
  | (UINT8 | INT8 | UINT16 | INT16 | UINT32 | INT32), JNum b => forall n, truncated b n -> - 2 ^ 63 <= n < 2 ^ 63
  | BIGUINT64, JBig x => 0 <= value x \/ value x mod 2 ^ 64 <> 2 ^ 63
  | BIGINT64, JBig x => value x mod 2 ^ 64 <> 2 ^ 63
  | _, _ => True
  end.
