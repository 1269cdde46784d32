(** * What the number texts should be

    Written from the language standard (ECMA-262, Number::toString and the
    methods of Number.prototype) and from the rounding of IEEE 754, not from
    the code.  Only the type of numbers is shared with the model. *)
Require Import ZArith QArith Qabs List Bool.
From Verif Require Import DtoaModel.
Import ListNotations.
Local Open Scope Z_scope.

(** ** Values *)

(** s * 10^t *)
Definition dec_q (s t : Z) : Q := (inject_Z s * (10 # 1) ^ t)%Q.
(** m * 2^e *)
Definition bin_q (m e : Z) : Q := (inject_Z m * (2 # 1) ^ e)%Q.

(** The value of a list of digits in a radix, first digit first. *)
Definition value (r : Z) (ds : list Z) : Z := fold_left (fun a d => a * r + d) ds 0.

Definition digit_list (r : Z) (ds : list Z) : Prop := Forall (fun d => 0 <= d < r) ds.

(** ** Reading back

    The numbers next to m * 2^e are m * 2^e - gap and m * 2^e + 2^e, where the
    gap is 2^e, or half of it when m is the smallest significand and the
    exponent is not the smallest.  A decimal reads back as the number when it
    is nearer to it than to either of them, or in the middle and m is even. *)
Definition below (m e : Z) : Q :=
  if (m =? 2 ^ 52) && (-1074 <? e) then bin_q (4 * m - 1) (e - 2)
  else bin_q (2 * m - 1) (e - 1).
Definition above (m e : Z) : Q := bin_q (2 * m + 1) (e - 1).

Definition inside (m e : Z) (q : Q) : Prop := (below m e < q)%Q /\ (q < above m e)%Q.

Definition within (m e : Z) (q : Q) : Prop := (below m e <= q)%Q /\ (q <= above m e)%Q.

Definition reads_back (m e : Z) (q : Q) : Prop :=
  inside m e q \/ (within m e q /\ Z.even m = true).

(** The digits ds with the decimal point after nv of them. *)
Definition decimal_value (ds : list Z) (nv : Z) : Q :=
  dec_q (value 10 ds) (nv - Z.of_nat (length ds)).

(** A digit string without superfluous zeros at either end. *)
Definition tidy (ds : list Z) : Prop :=
  digit_list 10 ds /\ ds <> [] /\ hd 0 ds <> 0 /\ last ds 0 <> 0.

(** No decimal with fewer than k digits satisfies P. *)
Definition no_shorter (k : nat) (P : Q -> Prop) : Prop :=
  forall s t : Z, 0 < s -> (1 <= k)%nat -> s < 10 ^ (Z.of_nat k - 1) -> ~ P (dec_q s t).

(** ** Numerals *)

Fixpoint numeral_from (fuel : nat) (r n : Z) : list Z :=
  match fuel with
  | O => []
  | S f => if n <? r then [n] else numeral_from f r (n / r) ++ [n mod r]
  end.

(** The numeral of a natural number in a radix. *)
Definition numeral (r n : Z) : list Z := numeral_from (S (Z.to_nat (Z.log2 n))) r n.

Definition character (d : Z) : Z := if d <? 10 then 48 + d else 87 + d.

Definition text (ds : list Z) : list Z := map character ds.

Definition decimal (n : Z) : list Z := text (numeral 10 n).

Definition zeros (n : Z) : list Z := repeat 48 (Z.to_nat n).

Definition take (n : Z) (l : list Z) : list Z := firstn (Z.to_nat n) l.
Definition drop (n : Z) (l : list Z) : list Z := skipn (Z.to_nat n) l.

Definition len (l : list Z) : Z := Z.of_nat (length l).

Definition signed (neg : bool) (l : list Z) : list Z := if neg then 45 :: l else l.

Definition exponent_text (e : Z) : list Z :=
  101 :: (if e <? 0 then 45 else 43) :: decimal (Z.abs e).

(** ** Number::toString, steps 5 to 10: digits s of number k, exponent n *)
Definition string_layout (s : list Z) (n : Z) : list Z :=
  let k := len s in
  let t := text s in
  if (k <=? n) && (n <=? 21) then t ++ zeros (n - k)
  else if (0 <? n) && (n <=? 21) then take n t ++ 46 :: drop n t
  else if (-6 <? n) && (n <=? 0) then 48 :: 46 :: zeros (- n) ++ t
  else if k =? 1 then t ++ exponent_text (n - 1)
  else take 1 t ++ 46 :: drop 1 t ++ exponent_text (n - 1).

(** ** Rounding *)

(** n is an integer as near to b / s as possible, the larger of two. *)
Definition nearest_up (b s n : Z) : Prop :=
  forall n', Z.abs (n * s - b) <= Z.abs (n' * s - b) /\
             (Z.abs (n * s - b) = Z.abs (n' * s - b) -> n' <= n).

(** The same, the even one of two. *)
Definition nearest_even (b s n : Z) : Prop :=
  forall n', Z.abs (n * s - b) <= Z.abs (n' * s - b) /\
             (Z.abs (n * s - b) = Z.abs (n' * s - b) -> n' <> n -> Z.even n = true).

(** Functions that compute them. *)
Definition round_up (b s : Z) : Z := (2 * b + s) / (2 * s).
Definition round_even (b s : Z) : Z :=
  if (2 * (b mod s) =? s) && Z.even (b / s) then b / s else round_up b s.

(** Numerator and denominator of m * 2^e * 10^f. *)
Definition scaled_b (m e f : Z) : Z := m * 2 ^ (Z.max e 0) * 10 ^ (Z.max f 0).
Definition scaled_s (e f : Z) : Z := 2 ^ (Z.max (- e) 0) * 10 ^ (Z.max (- f) 0).

(** b / s lies in the middle of an even number and the next one. *)
Definition tie_down (b s : Z) : bool := (2 * (b mod s) =? s) && Z.even (b / s).

(** k is the exponent of the first digit. *)
Definition first_exponent (m e k : Z) : Prop :=
  (dec_q 1 k <= bin_q m e)%Q /\ (bin_q m e < dec_q 1 (k + 1))%Q.

(** ** toFixed, from step 11: n is x * 10^f rounded *)
Definition fixed_text (n f : Z) : list Z :=
  let t := decimal n in
  if f =? 0 then t
  else
    let t := if len t <=? f then zeros (f + 1 - len t) ++ t else t in
    take (len t - f) t ++ 46 :: drop (len t - f) t.

(** ** toExponential, from step 11: f + 1 digits m *)
Definition exponential_text (m : list Z) (e f : Z) : list Z :=
  (if f =? 0 then m else take 1 m ++ 46 :: drop 1 m) ++ exponent_text e.

(** ** toPrecision, from step 10: p digits m *)
Definition precision_text (m : list Z) (e p : Z) : list Z :=
  if (e <? -6) || (p <=? e) then
    (if p =? 1 then m else take 1 m ++ 46 :: drop 1 m) ++ exponent_text e
  else if e =? p - 1 then m
  else if 0 <=? e then take (e + 1) m ++ 46 :: drop (e + 1) m
  else 48 :: 46 :: zeros (- (e + 1)) ++ m.

(** ** Significant digits

    n and e with 10^(p-1) <= n < 10^p and n * 10^(e-p+1) as near to x as
    possible; of two such pairs the larger. *)
Definition candidate (p n : Z) : Prop := 10 ^ (p - 1) <= n < 10 ^ p.

Definition distance (m e : Z) (q : Q) : Q := Qabs (q - bin_q m e)%Q.

Definition closest (m e p n ex : Z) : Prop :=
  candidate p n /\
  forall n' ex', candidate p n' ->
    (distance m e (dec_q n (ex - p + 1)) <= distance m e (dec_q n' (ex' - p + 1)))%Q.

Definition larger_of_two (m e p n ex : Z) : Prop :=
  forall n' ex', candidate p n' ->
    (distance m e (dec_q n (ex - p + 1)) == distance m e (dec_q n' (ex' - p + 1)))%Q ->
    (dec_q n' (ex' - p + 1) <= dec_q n (ex - p + 1))%Q.

(** n * 10^(k-p+1) with n from 10^(p-1) to 10^p written with p digits. *)
Definition carried (p k n : Z) : Z * Z :=
  if n =? 10 ^ p then (10 ^ (p - 1), k + 1) else (n, k).
