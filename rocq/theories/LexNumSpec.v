(** * What numbers in texts mean

    Written from the language standard (ECMA-262: numeric literals, StringToNumber,
    StringToBigInt, parseInt, parseFloat) and from IEEE 754, not from the code.
    The type of numbers and the intervals of decimals that read back as a number
    are those of DtoaSpec. *)
Require Import ZArith QArith List Bool.
From Verif Require Import DtoaModel DtoaSpec.
From Verif Require StrSpec.
Import ListNotations.
Local Open Scope Z_scope.

(** ** The Number value for x >= 0 with a sign *)
Definition rounds (neg : bool) (x : Q) (v : num) : Prop :=
  match v with
  | Zero g => g = neg /\ (x <= bin_q 1 (-1075))%Q
  | Fin g m e => g = neg /\ valid v /\ reads_back m e x
  | Inf g => g = neg /\ (bin_q (2 ^ 54 - 1) 970 <= x)%Q
  | Nan => False
  end.

(** ** Digits *)
Definition digit_of (c : Z) : Z :=
  if (48 <=? c) && (c <=? 57) then c - 48
  else if (97 <=? c) && (c <=? 122) then c - 87
  else if (65 <=? c) && (c <=? 90) then c - 55
  else 99.
Definition digit_in (r c : Z) : Prop := digit_of c < r.
Definition digits (r : Z) (w : list Z) : Prop := Forall (digit_in r) w.
Definition number_of (r : Z) (w : list Z) : Z := DtoaSpec.value r (map digit_of w).

(** ** Decimal literals: the value is D * 10^E *)
Inductive sign_text : list Z -> bool -> Prop :=
| sign_none : sign_text [] false
| sign_plus : sign_text [43] false
| sign_minus : sign_text [45] true.

Inductive exponent_of : list Z -> Z -> Prop :=
| exp_none : exponent_of [] 0
| exp_some : forall c sg neg w, c = 101 \/ c = 69 -> sign_text sg neg -> w <> [] -> digits 10 w ->
    exponent_of (c :: sg ++ w) (if neg then - number_of 10 w else number_of 10 w).

Inductive decimal_of : list Z -> Z -> Z -> Prop :=
| dec_whole : forall i x e, i <> [] -> digits 10 i -> exponent_of x e ->
    decimal_of (i ++ x) (number_of 10 i) e
| dec_point : forall i f x e, i ++ f <> [] -> digits 10 i -> digits 10 f -> exponent_of x e ->
    decimal_of (i ++ 46 :: f ++ x) (number_of 10 (i ++ f)) (e - len f).

(** ** Integers with a radix prefix *)
Definition radix_prefix (w : list Z) (r : Z) : Prop :=
  (r = 2 /\ (w = [48; 98] \/ w = [48; 66])) \/
  (r = 8 /\ (w = [48; 111] \/ w = [48; 79])) \/
  (r = 16 /\ (w = [48; 120] \/ w = [48; 88])).

Definition infinity_text : list Z := [73; 110; 102; 105; 110; 105; 116; 121].

Definition white (s : list Z) : Prop := Forall StrSpec.es_space s.

(** ** StringToNumber *)
Inductive str_literal : list Z -> num -> Prop :=
| sl_decimal : forall sg neg w D E v, sign_text sg neg -> decimal_of w D E ->
    rounds neg (dec_q D E) v -> str_literal (sg ++ w) v
| sl_infinity : forall sg neg, sign_text sg neg -> str_literal (sg ++ infinity_text) (Inf neg)
| sl_radix : forall p r w v, radix_prefix p r -> w <> [] -> digits r w ->
    rounds false (inject_Z (number_of r w)) v -> str_literal (p ++ w) v.

Definition string_number (s : list Z) (v : num) : Prop :=
  (white s /\ v = Zero false) \/
  exists a w b, s = a ++ w ++ b /\ white a /\ white b /\ str_literal w v.

Definition number_of_string (s : list Z) (v : num) : Prop :=
  string_number s v \/ ((forall u, ~ string_number s u) /\ v = Nan).

(** ** StringToBigInt *)
Inductive int_literal : list Z -> Z -> Prop :=
| il_decimal : forall sg neg w, sign_text sg neg -> w <> [] -> digits 10 w ->
    int_literal (sg ++ w) (if neg then - number_of 10 w else number_of 10 w)
| il_radix : forall p r w, radix_prefix p r -> w <> [] -> digits r w ->
    int_literal (p ++ w) (number_of r w).

Definition string_integer (s : list Z) (z : Z) : Prop :=
  (white s /\ z = 0) \/
  exists a w b, s = a ++ w ++ b /\ white a /\ white b /\ int_literal w z.

(** ** parseFloat: the value, and whether its text is Infinity *)
Inductive float_literal : list Z -> num -> bool -> Prop :=
| float_decimal : forall sg neg w D E v, sign_text sg neg -> decimal_of w D E ->
    rounds neg (dec_q D E) v -> float_literal (sg ++ w) v false
| float_infinity : forall sg neg, sign_text sg neg -> float_literal (sg ++ infinity_text) (Inf neg) true.

(** w is the longest prefix of t that is a literal. *)
Definition longest_float (t w : list Z) : Prop :=
  (exists r, t = w ++ r) /\ (exists v i, float_literal w v i) /\
  (forall w' r' v i, t = w' ++ r' -> float_literal w' v i -> len w' <= len w).
Definition no_float (t : list Z) : Prop := forall w r v i, t = w ++ r -> ~ float_literal w v i.

Definition no_space (t : list Z) : Prop := forall c r, t = c :: r -> ~ StrSpec.es_space c.

Definition float_of_string (s : list Z) (v : num) (i : bool) : Prop :=
  exists a t, s = a ++ t /\ white a /\ no_space t /\
    ((exists w, longest_float t w /\ float_literal w v i) \/ (no_float t /\ v = Nan /\ i = false)).

(** ** parseInt *)
Definition int_radix (radix : Z) (p rest : list Z) (r : Z) : Prop :=
  ((radix = 0 \/ radix = 16) /\ (p = [48; 120] \/ p = [48; 88]) /\ r = 16) \/
  (p = [] /\ (radix = 0 \/ radix = 16 -> forall t, rest <> 48 :: 120 :: t /\ rest <> 48 :: 88 :: t) /\
   r = if radix =? 0 then 10 else radix).

(** White space, sign, prefix, digits in the radix r, rest *)
Record int_parts (s : list Z) (radix : Z) (a sg : list Z) (neg : bool) (p : list Z) (r : Z) (w t : list Z) : Prop := {
  parts_all : s = a ++ sg ++ p ++ w ++ t;
  parts_white : white a;
  parts_space : no_space (sg ++ p ++ w ++ t);
  parts_sign : sign_text sg neg;
  parts_unsigned : sg = [] -> forall c u, p ++ w ++ t = c :: u -> c <> 43 /\ c <> 45;
  parts_radix : int_radix radix p (w ++ t) r;
  parts_digits : digits r w;
  parts_rest : forall c u, t = c :: u -> ~ digit_in r c }.

Definition int_of_string (s : list Z) (radix : Z) (v : num) : Prop :=
  (radix <> 0 /\ ~ 2 <= radix <= 36 /\ v = Nan) \/
  ((radix = 0 \/ 2 <= radix <= 36) /\ exists a sg neg p r w t, int_parts s radix a sg neg p r w t /\
     ((w = [] /\ v = Nan) \/ (w <> [] /\ rounds neg (inject_Z (number_of r w)) v))).
