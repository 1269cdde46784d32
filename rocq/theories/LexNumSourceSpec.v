(** * Numeric literals of programs

    Written from the language standard (ECMA-262: NumericLiteral, with numeric
    separators, BigInt literals and the legacy literals of sloppy code). *)
Require Import ZArith QArith List Bool.
From Verif Require Import DtoaModel DtoaSpec LexNumSpec.
Import ListNotations.
Local Open Scope Z_scope.

(** Digits of a radix with single underscores between them; the digits alone *)
Inductive separated (r : Z) : list Z -> list Z -> Prop :=
| sep_one : forall c, digit_in r c -> separated r [c] [c]
| sep_next : forall c u w, digit_in r c -> separated r u w -> separated r (c :: u) (c :: w)
| sep_under : forall c u w, digit_in r c -> separated r u w -> separated r (c :: 95 :: u) (c :: w).

(** Decimal integers: 0, or digits that do not begin with 0 *)
Inductive plain_int : list Z -> list Z -> Prop :=
| plain_zero : plain_int [48] [48]
| plain_some : forall c u w, separated 10 (c :: u) w -> c <> 48 -> plain_int (c :: u) w.

(** Sloppy code: also 0 and digits one of which is 8 or 9 *)
Inductive source_int (strict : bool) : list Z -> list Z -> Prop :=
| int_plain : forall u w, plain_int u w -> source_int strict u w
| int_nonoctal : forall w, strict = false -> digits 10 w -> ~ digits 8 w -> source_int strict (48 :: w) (48 :: w).

Inductive source_exp : list Z -> Z -> Prop :=
| sexp_none : source_exp [] 0
| sexp_some : forall c sg neg u w, c = 101 \/ c = 69 -> sign_text sg neg -> separated 10 u w ->
    source_exp (c :: sg ++ u) (if neg then - number_of 10 w else number_of 10 w).

Definition source_frac (u w : list Z) : Prop := (u = [] /\ w = []) \/ separated 10 u w.

(** The mathematical value: a Number (to be rounded) or a BigInt *)
Inductive meaning := MNum (x : Q) | MBig (z : Z).

Inductive literal (strict : bool) : list Z -> meaning -> Prop :=
| lit_whole : forall i iw x e, source_int strict i iw -> source_exp x e ->
    literal strict (i ++ x) (MNum (dec_q (number_of 10 iw) e))
| lit_point : forall i iw f fw x e, source_int strict i iw -> source_frac f fw -> source_exp x e ->
    literal strict (i ++ 46 :: f ++ x) (MNum (dec_q (number_of 10 (iw ++ fw)) (e - len fw)))
| lit_fraction : forall f fw x e, separated 10 f fw -> source_exp x e ->
    literal strict (46 :: f ++ x) (MNum (dec_q (number_of 10 fw) (e - len fw)))
| lit_radix : forall p r u w, radix_prefix p r -> separated r u w ->
    literal strict (p ++ u) (MNum (inject_Z (number_of r w)))
| lit_radix_big : forall p r u w, radix_prefix p r -> separated r u w ->
    literal strict (p ++ u ++ [110]) (MBig (number_of r w))
| lit_big : forall u w, plain_int u w -> literal strict (u ++ [110]) (MBig (number_of 10 w))
| lit_octal : forall w, strict = false -> w <> [] -> digits 8 w ->
    literal strict (48 :: w) (MNum (inject_Z (number_of 8 w))).

(** The literal at the beginning of s is w: the longest one, and neither a digit
    nor the start of an identifier follows. *)
Record literal_token (id_start : Z -> bool) (strict : bool) (s w r : list Z) (x : meaning) : Prop := {
  tok_text : s = w ++ r;
  tok_literal : literal strict w x;
  tok_follow : forall c t, r = c :: t -> ~ digit_in 10 c /\ id_start c = false;
  tok_longest : forall w' r' x', s = w' ++ r' -> literal strict w' x' -> len w' <= len w }.
