(** * Number texts: shortest decimals, toFixed, toExponential, toPrecision, radix

    What is modelled: the digit generation of dtoa_r (src/lib/rjs_dtoa.c,
    4985-6225) in the three modes the engine uses, rjs_number_to_string
    (src/lib/rjs_number.c, 232-339) and the four text methods of
    Number.prototype (src/lib/rjs_number_object_inc.c, 258-661).

    Simplifications.
    - A finite non zero double is given as sign, significand m and exponent e,
      value m * 2^e.
    - The decimal exponent k of the first digit is computed exactly.  The code
      looks it up in a table and corrects it (5135-5176).
    - Numbers are multiprecision integers.  The exact 64-bit path divides its
      denominator by ten where the model multiplies the remainder by ten; the
      quotients are the same.
    - Of the fast paths only the exact 64-bit one is modelled, for -3 <= k.
      The 96-bit approximation ("toobig", 5511-5753) and the exact path for
      -25 <= k <= -4 are taken to give the digits of the multiprecision path.
    - Texts are lists of character codes; [None] is a read beyond the digits
      that dtoa returned or digits without end. *)
Require Import ZArith List Bool.
Import ListNotations.
Local Open Scope Z_scope.

(** A number (RJS_Number, a double). *)
Inductive num :=
| Zero (neg : bool)
| Fin (neg : bool) (m e : Z)
| Inf (neg : bool)
| Nan.

(** The numbers that are doubles: normal, or subnormal. *)
Definition valid (x : num) : Prop :=
  match x with
  | Fin _ m e =>
      (2 ^ 52 <= m < 2 ^ 53 /\ -1074 <= e <= 971) \/
      (0 < m < 2 ^ 52 /\ e = -1074)
  | _ => True
  end.

(** ** Scaling *)

(** x = bx / sx (d2b, rjs_dtoa.c 5758; b2 and s2, 5763-5772). *)
Definition bx (m e : Z) : Z := m * 2 ^ (Z.max e 0).
Definition sx (e : Z) : Z := 2 ^ (Z.max (- e) 0).

(** The number of decimal digits of n, less one. *)
Fixpoint ilog10 (fuel : nat) (n : Z) : Z :=
  match fuel with
  | O => 0
  | S f => if n <? 10 then 0 else 1 + ilog10 f (n / 10)
  end.

(** k, the exponent of the first decimal digit (rjs_dtoa.c 5135-5178). *)
Definition kexp (b s : Z) : Z :=
  if s <=? b then ilog10 (S (Z.to_nat (Z.log2 (b / s)))) (b / s)
  else - (1 + ilog10 (S (Z.to_nat (Z.log2 ((s - 1) / b)))) ((s - 1) / b)).

(** Numerator and denominator of x / 10^k (b5, s5, rjs_dtoa.c 5773-5782 and
    5942-5982), and the unit in the last place in the same unit. *)
Definition b_of (m e k : Z) : Z := bx m e * 10 ^ (Z.max (- k) 0).
Definition s_of (e k : Z) : Z := sx e * 10 ^ (Z.max k 0).
Definition u_of (e k : Z) : Z := 2 ^ (Z.max e 0) * 10 ^ (Z.max (- k) 0).

(** Power of two: the gap below is half of the gap above
    (rjs_dtoa.c 5330-5343). *)
Definition spec_case (m e : Z) : bool := (m =? 2 ^ 52) && (-1074 <? e).

(** ** Digits *)

(** Digits are collected with the last one first. *)

(** Roundup / roundoff (rjs_dtoa.c 5487-5495 and 6177-6185). *)
Fixpoint round_off (rs : list Z) (k : Z) : list Z * Z :=
  match rs with
  | [] => ([1], k + 1)
  | d :: t => if d =? 9 then round_off t k else (d + 1 :: t, k)
  end.

(** retc: drop trailing zeros (rjs_dtoa.c 6193-6195). *)
Fixpoint strip (rs : list Z) : list Z :=
  match rs with
  | d :: t => if d =? 0 then strip t else rs
  | [] => []
  end.

Definition is_eq (c : comparison) : bool := match c with Eq => true | _ => false end.
Definition is_lt (c : comparison) : bool := match c with Lt => true | _ => false end.
Definition is_gt (c : comparison) : bool := match c with Gt => true | _ => false end.

(** Mode 0, multiprecision (rjs_dtoa.c 6033-6133). *)
Fixpoint shortest_big (fuel : nat) (even : bool) (b s lo hi : Z) (rs : list Z) (k : Z)
  : option (list Z * Z) :=
  match fuel with
  | O => None
  | S f =>
      let dig := b / s in
      let r := b mod s in
      let j := r ?= lo in
      let j1 := if s - hi <? 0 then Gt else r ?= s - hi in
      let up := if dig =? 9 then Some (round_off (9 :: rs) k)
                else Some (strip (dig + 1 :: rs), k) in
      let keep := Some (strip (dig :: rs), k) in
      if is_eq j1 && even then
        if dig =? 9 then Some (round_off (9 :: rs) k)
        else if is_gt j then Some (strip (dig + 1 :: rs), k) else keep
      else if is_lt j || (is_eq j && even) then
        if r =? 0 then keep
        else if is_gt j1 && ((s <? 2 * r) || ((2 * r =? s) && Z.odd dig)) then up
        else keep
      else if is_gt j1 then up
      else shortest_big f even (10 * r) s (10 * lo) (10 * hi) (dig :: rs) k
  end.

(** Mode 0, exact 64-bit arithmetic (rjs_dtoa.c 5393-5504); u is the unit in
    the last place. *)
Fixpoint shortest_exact (fuel : nat) (spec : bool) (b s u : Z) (rs : list Z) (k : Z)
  : option (list Z * Z) :=
  match fuel with
  | O => None
  | S f =>
      let dig := b / s in
      let r := b mod s in
      let ures := s - r in
      if r =? 0 then Some (strip (dig :: rs), k)
      else if (2 * r <=? u) &&
              (if spec then 4 * r <=? u else (2 * r <? u) || Z.odd dig) then
        if (ures <? r) || ((ures =? r) && Z.odd dig)
        then Some (round_off (dig :: rs) k)
        else Some (strip (dig :: rs), k)
      else if 2 * ures <? u then Some (round_off (dig :: rs) k)
      else shortest_exact f spec (10 * r) s (10 * u) (dig :: rs) k
  end.

(** Modes 2 and 3: up to n digits (rjs_dtoa.c 6134-6150); the digits and the
    remainder. *)
Fixpoint some_digits (n : nat) (b s : Z) (rs : list Z) : list Z * Z :=
  match n with
  | O => (rs, b)
  | S n' =>
      let r := b mod s in
      match n' with
      | O => (b / s :: rs, r)
      | _ => if r =? 0 then (b / s :: rs, 0)
             else some_digits n' (10 * r) s (b / s :: rs)
      end
  end.

(** Round off the last digit (rjs_dtoa.c 6152-6195). *)
Definition fixed_digits (n : nat) (b s k : Z) : list Z * Z :=
  let '(rs, r) := some_digits n b s [] in
  let dig := hd 0 rs in
  if (s <? 2 * r) || ((2 * r =? s) && Z.odd dig) then round_off rs k
  else (strip rs, k).

(** Whether the exact 64-bit path is taken (rjs_dtoa.c 5354-5390). *)
Definition exact_path (e k : Z) : bool :=
  ((-3 <=? k) && (k <? 0)) || ((0 <=? k) && (k <=? 27) && (0 <=? k - e)).

(** The modes of dtoa the engine uses (0, 2 and 3). *)
Inductive mode := Shortest | Significant (n : Z) | Decimals (n : Z).

(** Seventeen digits are always enough; see the proofs. *)
Definition max_digits : nat := 17%nat.

(** rjs_dtoa for a finite non zero number (rjs_dtoa.c 4985-6225): the digits
    and decpt. *)
Definition dtoa (md : mode) (m e : Z) : option (list Z * Z) :=
  let k := kexp (bx m e) (sx e) in
  let b := b_of m e k in
  let s := s_of e k in
  let u := u_of e k in
  let out rk := (rev (fst rk), snd rk + 1) in
  match md with
  | Shortest =>
      option_map out
        (if exact_path e k then shortest_exact max_digits (spec_case m e) b s u [] k
         else if spec_case m e
         then shortest_big max_digits (Z.even m) (4 * b) (4 * s) u (2 * u) [] k
         else shortest_big max_digits (Z.even m) (2 * b) (2 * s) u u [] k)
  | Significant n => Some (out (fixed_digits (Z.to_nat (Z.max n 1)) b s k))
  | Decimals n =>
      let ilim := n + k + 1 in
      if ilim <? 0 then Some ([], - n)
      else if ilim =? 0 then
        if 5 * s <? b then Some ([1], k + 2) else Some ([], - n)
      else Some (out (fixed_digits (Z.to_nat ilim) b s k))
  end.

(** rjs_dtoa: zero gives "0" and decpt 1 (rjs_dtoa.c 5113-5116). *)
Definition dtoa_num (md : mode) (x : num) : option (list Z * Z) :=
  match x with
  | Fin _ m e => dtoa md m e
  | _ => Some ([0], 1)
  end.

(** The sign dtoa returns (rjs_dtoa.c 5085-5092). *)
Definition sign_of (x : num) : bool :=
  match x with Zero g => g | Fin g _ _ => g | Inf g => g | Nan => false end.

(** ** Copy loops *)

Definition ch (d : Z) : Z := 48 + d.
Definition minus : Z := 45.
Definition plus : Z := 43.
Definition dot : Z := 46.
Definition letter_e : Z := 101.

(** [n] times [*dc ++ = *sc ++], without a check of the end. *)
Fixpoint copy (n : nat) (sc : list Z) : option (list Z * list Z) :=
  match n with
  | O => Some ([], sc)
  | S n' =>
      match sc with
      | [] => None
      | d :: t =>
          match copy n' t with
          | Some (o, rest) => Some (ch d :: o, rest)
          | None => None
          end
      end
  end.

(** [n] times [*dc ++ = (sc >= se) ? '0' : *sc ++]. *)
Fixpoint copy_pad (n : nat) (sc : list Z) : list Z * list Z :=
  match n with
  | O => ([], sc)
  | S n' =>
      match sc with
      | [] => let '(o, rest) := copy_pad n' [] in (48 :: o, rest)
      | d :: t => let '(o, rest) := copy_pad n' t in (ch d :: o, rest)
      end
  end.

(** The zeros of [for (; i < n; i ++) *dc ++ = '0'] from i on. *)
Definition zeros_from (i n : Z) : list Z := repeat 48 (Z.to_nat (n - i)).

(** [for (v = 10; v <= left; v *= 10);] (rjs_number.c 322). *)
Fixpoint grow (fuel : nat) (v left : Z) : Z :=
  match fuel with
  | O => v
  | S f => if v <=? left then grow f (v * 10) left else v
  end.

(** [for (v /= 10; v > 0; v /= 10) ...] (rjs_number.c 323-328). *)
Fixpoint emit (fuel : nat) (v left : Z) : list Z :=
  match fuel with
  | O => []
  | S f => if 0 <? v then ch (left / v) :: emit f (v / 10) (left mod v) else []
  end.

Definition exponent (nv : Z) : list Z :=
  let left := if nv - 1 <? 0 then 1 - nv else nv - 1 in
  letter_e :: (if nv - 1 <? 0 then minus else plus)
  :: emit 10 (grow 10 10 left / 10) left.

Definition when (c : bool) (l : list Z) : list Z := if c then l else [].

(** ** rjs_number_to_string *)

(** is_array_index (rjs_number.c 232-245). *)
Definition array_index (x : num) : option Z :=
  match x with
  | Zero false => Some 0
  | Fin false m e =>
      if (bx m e mod sx e =? 0) && (bx m e / sx e <? 0xffffffff)
      then Some (bx m e / sx e) else None
  | _ => None
  end.

(** An index string: the decimal text of the index
    (rjs_value_set_index_string, index_string_to_string). *)
Fixpoint index_digits (fuel : nat) (n : Z) : list Z :=
  match fuel with
  | O => []
  | S f => if n <? 10 then [ch n] else index_digits f (n / 10) ++ [ch (n mod 10)]
  end.

Definition index_text (n : Z) : list Z := index_digits 10 n.

Definition text_nan : list Z := [78; 97; 78].
Definition text_inf : list Z := [73; 110; 102; 105; 110; 105; 116; 121].

(** The layout (rjs_number.c 283-331). *)
Definition layout (neg : bool) (ds : list Z) (nv : Z) : option (list Z) :=
  let kv := Z.of_nat (length ds) in
  option_map (app (when neg [minus]))
    (if (kv <=? nv) && (nv <=? 21) then
       match copy (length ds) ds with
       | Some (o, _) => Some (o ++ zeros_from kv nv)
       | None => None
       end
     else if (0 <? nv) && (nv <=? 21) then
       match copy (Z.to_nat nv) ds with
       | Some (o, sc) =>
           match copy (Z.to_nat (kv - nv)) sc with
           | Some (o2, _) => Some (o ++ dot :: o2)
           | None => None
           end
       | None => None
       end
     else if (-6 <? nv) && (nv <=? 0) then
       match copy (length ds) ds with
       | Some (o, _) => Some (48 :: dot :: zeros_from 0 (- nv) ++ o)
       | None => None
       end
     else
       match copy 1 ds with
       | Some (o, sc) =>
           if kv =? 1 then Some (o ++ exponent nv)
           else match copy (Z.to_nat (kv - 1)) sc with
                | Some (o2, _) => Some (o ++ dot :: o2 ++ exponent nv)
                | None => None
                end
       | None => None
       end).

(** rjs_number_to_string (rjs_number.c 255-339). *)
Definition number_to_string (x : num) : option (list Z) :=
  match x with
  | Zero true => Some (index_text 0)
  | _ =>
      match array_index x with
      | Some n => Some (index_text n)
      | None =>
          match x with
          | Nan => Some text_nan
          | Inf g => Some (when g [minus] ++ text_inf)
          | _ =>
              match dtoa_num Shortest x with
              | Some (ds, nv) => layout (sign_of x) ds nv
              | None => None
              end
          end
      end
  end.

(** ** The methods *)

(** What a method does: the text, a RangeError, or undefined behaviour. *)
Inductive res := Text (t : list Z) | RangeError | Undefined.

Definition of_text (t : option (list Z)) : res :=
  match t with Some l => Text l | None => Undefined end.

(** The argument after ToIntegerOrInfinity. *)
Inductive arg := Int (n : Z) | NegInf | PosInf.

Definition arg_lt (a : arg) (n : Z) : bool :=
  match a with Int i => i <? n | NegInf => true | PosInf => false end.
Definition arg_gt (a : arg) (n : Z) : bool :=
  match a with Int i => n <? i | NegInf => false | PosInf => true end.
Definition arg_int (a : arg) : Z := match a with Int i => i | _ => 0 end.

Definition nonzero (x : num) : bool := match x with Zero _ => false | _ => true end.

Definition finite (x : num) : bool :=
  match x with Zero _ | Fin _ _ _ => true | _ => false end.

(** Number_prototype_toExponential (rjs_number_object_inc.c 258-343); the
    argument is [None] when it is undefined. *)
Definition to_exponential (x : num) (fv : option arg) : res :=
  let fn := match fv with Some a => a | None => Int 0 end in
  if negb (finite x) then of_text (number_to_string x)
  else if arg_lt fn 0 || arg_gt fn 100 then RangeError
  else
    match dtoa_num (match fv with
                    | Some _ => Significant (arg_int fn + 1)
                    | None => Shortest end) x with
    | None => Undefined
    | Some (ds, nv) =>
        let frac := match fv with
                    | Some _ => arg_int fn
                    | None => Z.of_nat (length ds) - 1 end in
        match copy 1 ds with
        | None => Undefined
        | Some (o, sc) =>
            Text (when (sign_of x && nonzero x) [minus] ++ o
                  ++ when (0 <? frac) (dot :: fst (copy_pad (Z.to_nat frac) sc))
                  ++ exponent nv)
        end
    end.

(** |n| >= 1e21 *)
Definition huge (x : num) : bool :=
  match x with
  | Fin _ m e => 10 ^ 21 * sx e <=? bx m e
  | _ => false
  end.

(** The digits of toFixed (rjs_number_object_inc.c 381-446). *)
Definition fixed_body (ds : list Z) (nv frac : Z) : option (list Z) :=
  let kv := Z.of_nat (length ds) in
  if kv <=? nv then
    if kv =? 0 then
      Some (48 :: zeros_from 1 nv ++ when (0 <? frac) [dot] ++ zeros_from 0 frac)
    else
      match copy (length ds) ds with
      | Some (o, _) =>
          Some (o ++ zeros_from kv nv ++ when (0 <? frac) [dot] ++ zeros_from 0 frac)
      | None => None
      end
  else if 0 <? nv then
    match copy (Z.to_nat nv) ds with
    | Some (o, sc) =>
        if 0 <? frac then
          let n := Z.min (kv - nv) frac in
          match copy (Z.to_nat n) sc with
          | Some (o2, _) => Some (o ++ dot :: o2 ++ zeros_from n frac)
          | None => None
          end
        else Some o
    | None => None
    end
  else
    if 0 <? frac then
      let z := Z.min (- nv) frac in
      let n := Z.min kv (frac - z) in
      match copy (Z.to_nat n) ds with
      | Some (o2, _) =>
          Some (48 :: dot :: zeros_from 0 z ++ o2 ++ zeros_from (z + n) frac)
      | None => None
      end
    else Some [48].

(** Number_prototype_toFixed (rjs_number_object_inc.c 346-458). *)
Definition to_fixed (x : num) (fn : arg) : res :=
  match fn with
  | NegInf | PosInf => RangeError
  | Int frac =>
      if (frac <? 0) || (100 <? frac) then RangeError
      else if negb (finite x) || huge x then of_text (number_to_string x)
      else
        match dtoa_num (Decimals frac) x with
        | None => Undefined
        | Some (ds, nv) =>
            of_text (option_map (app (when (sign_of x) [minus])) (fixed_body ds nv frac))
        end
  end.

(** The digits of toPrecision (rjs_number_object_inc.c 518-563). *)
Definition precision_body (ds : list Z) (nv prec : Z) : option (list Z) :=
  let ev := nv - 1 in
  if (ev <? -6) || (prec <=? ev) then
    match copy 1 ds with
    | None => None
    | Some (o, sc) =>
        Some (o ++ when (negb (prec =? 1)) (dot :: fst (copy_pad (Z.to_nat (prec - 1)) sc))
              ++ exponent nv)
    end
  else if ev =? prec - 1 then Some (fst (copy_pad (Z.to_nat prec) ds))
  else if 0 <=? ev then
    let '(o, sc) := copy_pad (Z.to_nat (ev + 1)) ds in
    Some (o ++ dot :: fst (copy_pad (Z.to_nat (prec - ev - 1)) sc))
  else
    Some (48 :: dot :: zeros_from 0 (- (ev + 1)) ++ fst (copy_pad (Z.to_nat prec) ds)).

(** Number_prototype_toPrecision (rjs_number_object_inc.c 475-576). *)
Definition to_precision (x : num) (pv : option arg) : res :=
  match pv with
  | None => of_text (number_to_string x)
  | Some pn =>
      if negb (finite x) then of_text (number_to_string x)
      else if arg_lt pn 1 || arg_gt pn 100 then RangeError
      else
        let prec := arg_int pn in
        match dtoa_num (Significant prec) x with
        | None => Undefined
        | Some (ds, nv) =>
            of_text (option_map (app (when (sign_of x && nonzero x) [minus]))
                                (precision_body ds nv prec))
        end
  end.

(** The digit loop of toString (rjs_number_object_inc.c 625-650); the buffer
    has 255 characters before the terminator. *)
Fixpoint radix_digits (fuel : nat) (left radix : Z) (acc : list Z) : option (list Z) :=
  match fuel with
  | O => None
  | S f =>
      let d := if left <? radix then left else left mod radix in
      let c := if d <? 10 then d + 48 else d - 10 + 97 in
      if left <? radix then Some (c :: acc)
      else radix_digits f (left / radix) radix (c :: acc)
  end.

(** Number_prototype_toString (rjs_number_object_inc.c 579-661).  The
    conversion of a double to int64_t and the negation of the smallest int64_t
    are undefined out of range. *)
Definition to_string (x : num) (radixv : option arg) : res :=
  let ra := match radixv with None => Int 10 | Some a => a end in
  if arg_lt ra 2 || arg_gt ra 36 then RangeError
  else
    let radix := arg_int ra in
    if radix =? 10 then of_text (number_to_string x)
    else
      match x with
      | Inf _ | Nan => Undefined
      | Zero _ => of_text (radix_digits 255 0 radix [])
      | Fin g m e =>
          let a := bx m e / sx e in
          let i := if g then - a else a in
          if (i <? - 2 ^ 63) || (2 ^ 63 - 1 <? i) then Undefined
          else if bx m e mod sx e =? 0 then
            if i =? - 2 ^ 63 then Undefined
            else of_text (option_map (app (when g [minus]))
                            (radix_digits 255 a radix []))
          else of_text (number_to_string x)
      end.
