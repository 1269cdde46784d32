(** * Numbers in texts: literals, StringToNumber, StringToBigInt, parseInt, parseFloat

    What is modelled: lex_number (src/lib/rjs_lex.c, 459-739), the parts of
    rjs_lex_get_token that tell numbers, signs and the word Infinity from other
    tokens (1279-1427), lex_identifier (809-928), parse_string
    (src/lib/rjs_string.c, 588-715), rjs_strtoi (src/lib/rjs_strtoi.c), the
    reading of rjs_strtod (src/lib/rjs_dtoa.c, 3471-3720) and the functions
    parseInt and parseFloat (src/lib/rjs_global_object.c, 133-240).

    Simplifications.
    - The input is the list of characters; reading takes the head and pushing
      back puts it back (property C62 is about the real input).  The end of the
      input, -1 in the code, is the empty list.
    - The arithmetic of rjs_strtod is taken to round correctly ([to_double]);
      only its reading of the text is modelled.  Its sums of exponent digits
      are C ints (3660); they are unbounded here, except in [exponent_sum].
    - A token that is neither number, sign, word nor end makes parse_string
      answer NaN whatever follows, so these tokens are one value [TOther].  The
      same holds for every lexical error ([None]).
    - Which characters begin and continue identifiers is taken from a library
      (ICU); they are parameters. *)
Require Import ZArith List Bool.
From Verif Require DtoaModel BigModel StrModel.
Import ListNotations.
Local Open Scope Z_scope.

Notation num := DtoaModel.num.
Notation Zero := DtoaModel.Zero.
Notation Fin := DtoaModel.Fin.
Notation Inf := DtoaModel.Inf.
Notation Nan := DtoaModel.Nan.

(** ** Rounding *)

(** a / b rounded to an integer, ties to even *)
Definition half_even (a b : Z) : Z :=
  let d := a / b in
  match 2 * (a mod b) ?= b with
  | Lt => d
  | Eq => if Z.even d then d else d + 1
  | Gt => d + 1
  end.

(** The double nearest to p / q (p >= 0, q > 0): the result of rjs_strtod,
    rjs_dtoa.c:3720-4880, as documented there. *)
Definition to_double (neg : bool) (p q : Z) : num :=
  let P := p * 2 ^ 1076 in
  let e := Z.max (Z.log2 (P / q) - 1128) (-1074) in
  let m := half_even P (q * 2 ^ (e + 1076)) in
  let '(m, e) := if m =? 2 ^ 53 then (2 ^ 52, e + 1) else (m, e) in
  if m =? 0 then Zero neg
  else if 971 <? e then Inf neg
  else Fin neg m e.

(** D * 10^E *)
Definition dec_double (neg : bool) (D E : Z) : num :=
  to_double neg (D * 10 ^ Z.max E 0) (10 ^ Z.max (- E) 0).

(** A sum or product of integers in double arithmetic; [None]: infinity. *)
Definition fl (z : Z) : option Z :=
  let e := Z.log2 z - 52 in
  let r := if e <=? 0 then z else half_even z (2 ^ e) * 2 ^ e in
  if r <? 2 ^ 1024 then Some r else None.

(** ** Characters *)

(** include/rjs_uchar.h:44-74 *)
Definition is_octal (c : Z) : bool := (48 <=? c) && (c <=? 55).
Definition is_digit (c : Z) : bool := (48 <=? c) && (c <=? 57).
Definition is_xdigit (c : Z) : bool :=
  ((48 <=? c) && (c <=? 57)) || ((97 <=? c) && (c <=? 102)) || ((65 <=? c) && (c <=? 70)).
(** include/rjs_uchar.h:106-117, on hexadecimal digits *)
Definition hex_value (c : Z) : Z :=
  if (97 <=? c) && (c <=? 102) then c - 97 + 10
  else if (65 <=? c) && (c <=? 70) then c - 65 + 10
  else c - 48.
(** include/rjs_uchar.h:157-161 *)
Definition is_line_terminator (c : Z) : bool :=
  (c =? 0x0a) || (c =? 0x0d) || (c =? 0x2028) || (c =? 0x2029).
(** isspace, and the blanks of rjs_strtod (rjs_dtoa.c:3527-3533) *)
Definition is_c_space (c : Z) : bool := ((9 <=? c) && (c <=? 13)) || (c =? 32).

Fixpoint span (f : Z -> bool) (s : list Z) : list Z * list Z :=
  match s with
  | [] => ([], [])
  | c :: r => if f c then let '(a, b) := span f r in (c :: a, b) else ([], s)
  end.

Definition begins (f : Z -> bool) (s : list Z) : bool :=
  match s with c :: _ => f c | [] => false end.

(** The value of decimal digits. *)
Definition dec_value (w : list Z) : Z := fold_left (fun a c => a * 10 + (c - 48)) w 0.

(** ** rjs_strtod *)

(** match, rjs_dtoa.c:2573-2588: compares letters without regard to case. *)
Definition lower (c : Z) : Z := if (65 <=? c) && (c <=? 90) then c + 32 else c.
Fixpoint match_word (w s : list Z) : option (list Z) :=
  match w, s with
  | [], _ => Some s
  | a :: w', c :: r => if lower c =? a then match_word w' r else None
  | _, [] => None
  end.

(** 3641-3674: exponent, what follows; the exponent is cut at 19999 *)
Definition strtod_exp (s : list Z) : Z * list Z :=
  match s with
  | c :: r =>
      if (c =? 101) || (c =? 69) then
        let '(neg, t) := match r with
                         | d :: u => if d =? 45 then (true, u) else if d =? 43 then (false, u) else (false, r)
                         | [] => (false, r)
                         end in
        let '(x, t') := span is_digit t in
        match x with
        | [] => (0, s)
        | _ => let e := Z.min (dec_value x) 19999 in (if neg then - e else e, t')
        end
      else (0, s)
  | [] => (0, s)
  end.

(** The sign, 3519-3537; [None]: a sign at the end. *)
Definition strtod_sign (s : list Z) : option (bool * list Z) :=
  match s with
  | [] => None
  | c :: r =>
      if (c =? 45) || (c =? 43) then
        match r with [] => None | _ => Some (c =? 45, r) end
      else Some (false, s)
  end.

(** The part after the sign, 3538-3720: value and rest.  [None]: nothing read. *)
Definition strtod_body (neg : bool) (s : list Z) : option (num * list Z) :=
  let '(i, s1) := span is_digit s in
  let '(dot, f, s2) :=
    match s1 with
    | c :: r => if c =? 46 then let '(f, t) := span is_digit r in (true, f, t) else (false, [], s1)
    | [] => (false, [], s1)
    end in
  match i ++ f with
  | [] =>
      match s2 with
      | c :: r =>
          if negb dot && (c =? 73) then
            match match_word [110; 102] r with
            | Some t =>
                match match_word [105; 110; 105; 116; 121] t with
                | Some t' => Some (Inf neg, t')
                | None => Some (Inf neg, t)
                end
            | None => None
            end
          else None
      | [] => None
      end
  | ds =>
      let '(e, s3) := strtod_exp s2 in
      Some (dec_double neg (dec_value ds) (e - Z.of_nat (length f)), s3)
  end.

(** rjs_strtod: number and rest; nothing read: 0 and the whole text. *)
Definition strtod (s : list Z) : num * list Z :=
  match strtod_sign (snd (span is_c_space s)) with
  | None => (Zero false, s)
  | Some (neg, t) =>
      match strtod_body neg t with
      | None => (Zero false, s)
      | Some r => r
      end
  end.

(** The sum L of the exponent digits, 3660, is a C int. *)
Definition exponent_sum (x : list Z) : Z := dec_value x.

(** ** rjs_strtoi *)

(** The value of a digit, rjs_strtoi.c:75-94. *)
Definition strtoi_digit (base c : Z) : option Z :=
  if base <=? 10 then
    if (c <? 48) || (48 + base - 1 <? c) then None else Some (c - 48)
  else if is_digit c then Some (c - 48)
  else if (97 <=? c) && (c <=? 97 + base - 11) then Some (c - 97 + 10)
  else if (65 <=? c) && (c <=? 65 + base - 11) then Some (c - 65 + 10)
  else None.

(** The loop, rjs_strtoi.c:72-99. *)
Fixpoint strtoi_loop (base : Z) (d : option Z) (s : list Z) : option Z * list Z :=
  match s with
  | [] => (d, s)
  | c :: r =>
      match strtoi_digit base c with
      | None => (d, s)
      | Some v =>
          let d' := match d with
                    | None => None
                    | Some x => match fl (x * base) with None => None | Some y => fl (y + v) end
                    end in
          strtoi_loop base d' r
      end
  end.

(** The double with an integer value that is one. *)
Definition whole (neg : bool) (d : option Z) : num :=
  match d with None => Inf neg | Some z => to_double neg z 1 end.

(** rjs_strtoi.c:35-109: number and rest *)
Definition strtoi (s : list Z) (base : Z) : num * list Z :=
  let t := snd (span is_c_space s) in
  let '(neg, t) := match t with
                   | c :: r => if c =? 43 then (false, r) else if c =? 45 then (true, r) else (false, t)
                   | [] => (false, t)
                   end in
  let '(base, t) :=
    if (base =? 0) || (base =? 16) then
      match t with
      | a :: b :: r => if (a =? 48) && ((b =? 120) || (b =? 88)) then (16, r) else (base, t)
      | _ => (base, t)
      end
    else (base, t) in
  let base := if base =? 0 then 10 else base in
  if base =? 10 then strtod s
  else
    let '(d, r) := strtoi_loop base (Some 0) t in
    (whole neg d, r).

(** ** lex_number *)

(** Digits of a base, rjs_lex.c:538-612. *)
Definition ok_digit (base c : Z) : bool :=
  if base =? 2 then (c =? 48) || (c =? 49)
  else if base =? 8 then is_octal c
  else if base =? 10 then is_digit c
  else is_xdigit c.

(** The integer part, rjs_lex.c:526-617.  [dn]: a digit was read.  The result
    is the base, the digits and the input from the last character read on. *)
Fixpoint int_loop (no_sep legacy : bool) (base : Z) (can_sep dn : bool) (s : list Z)
  : option (Z * list Z * list Z) :=
  let stop :=
    if negb dn then None
    else if negb no_sep && negb can_sep then None
    else Some (base, [], s) in
  match s with
  | [] => stop
  | c :: r =>
      if negb no_sep && (c =? 95) && can_sep then int_loop no_sep legacy base false dn r
      else
        let go b := match int_loop no_sep legacy b true true r with
                    | Some (b', w, t) => Some (b', c :: w, t)
                    | None => None
                    end in
        if ok_digit base c then go base
        else if (base =? 8) && legacy && (is_digit c || (c =? 46) || (c =? 101) || (c =? 69)) then go 10
        else stop
  end.

(** The fraction digits, rjs_lex.c:629-648. *)
Fixpoint frac_loop (no_sep can_sep dn : bool) (s : list Z) : option (list Z * list Z) :=
  let stop := if negb no_sep && dn && negb can_sep then None else Some ([], s) in
  match s with
  | [] => stop
  | c :: r =>
      if negb no_sep && can_sep && (c =? 95) then frac_loop no_sep false dn r
      else if is_digit c then
        match frac_loop no_sep true true r with
        | Some (w, t) => Some (c :: w, t)
        | None => None
        end
      else stop
  end.

(** The exponent digits, rjs_lex.c:664-686. *)
Fixpoint exp_loop (no_sep can_sep dn : bool) (s : list Z) : option (list Z * list Z) :=
  let stop := if negb dn then None
              else if negb no_sep && negb can_sep then None
              else Some ([], s) in
  match s with
  | [] => stop
  | c :: r =>
      if negb no_sep && can_sep && (c =? 95) then exp_loop no_sep false dn r
      else if is_digit c then
        match exp_loop no_sep true true r with
        | Some (w, t) => Some (c :: w, t)
        | None => None
        end
      else stop
  end.

(** Fraction and exponent, rjs_lex.c:621-688: the text read, is_float, rest. *)
Definition fraction_part (no_sep : bool) (s : list Z) : option (list Z * bool * list Z) :=
  match s with
  | c :: r =>
      if c =? 46 then
        match frac_loop no_sep false false r with
        | Some (w, t) => Some (46 :: w, true, t)
        | None => None
        end
      else Some ([], false, s)
  | [] => Some ([], false, s)
  end.

Definition exponent_part (no_sep : bool) (s : list Z) : option (list Z * bool * list Z) :=
  match s with
  | c :: r =>
      if (c =? 101) || (c =? 69) then
        let '(sg, t) := match r with
                        | d :: u => if (d =? 43) || (d =? 45) then ([d], u) else ([], r)
                        | [] => ([], r)
                        end in
        match exp_loop no_sep false false t with
        | Some (w, u) => Some (c :: sg ++ w, true, u)
        | None => None
        end
      else Some ([], false, s)
  | [] => Some ([], false, s)
  end.

(** The value of a number token. *)
Inductive value := VNum (n : num) | VBig (b : BigModel.bi).

Section Lexer.
(** rjs_uchar_is_id_start and rjs_uchar_is_id_continue,
    src/lib/rjs_uchar_icu_opt.c:46-72 *)
Variables (id_start id_continue : Z -> bool).

(** lex->status and lex->flags: RJS_LEX_ST_NO_SEP with
    RJS_LEX_ST_NO_LEGACY_OCT (set together in parse_string), and
    RJS_LEX_FL_BIG_INT; a parser in strict mode is at work. *)
Record mode := Mode { from_string : bool; big_flag : bool; strict : bool }.

(** From int_end on, rjs_lex.c:619-739: flag RJS_TOKEN_FL_DECIMAL, value, rest *)
Definition int_end (md : mode) (no_sep legacy : bool) (base : Z) (text s : list Z)
  : option (bool * value * list Z) :=
  match
    (if (base =? 10) && negb (big_flag md) then
       match fraction_part no_sep s with
       | None => None
       | Some (w1, f1, s1) =>
           match exponent_part no_sep s1 with
           | None => None
           | Some (w2, f2, s2) => Some (text ++ w1 ++ w2, f1 || f2, s2)
           end
       end
     else Some (text, false, s)) with
  | None => None
  | Some (text, is_float, s) =>
      let '(is_big, s) :=
        match s with
        | c :: r => if (c =? 110) && negb (big_flag md) && negb legacy && negb is_float
                    then (true, r) else (false, s)
        | [] => (false, s)
        end in
      if begins is_digit s || begins id_start s then None
      else if no_sep && strict md then None
      else
        let v := if is_big || big_flag md then VBig (BigModel.from_digits (map hex_value text) base)
                 else if is_float then VNum (fst (strtod text))
                 else VNum (fst (strtoi text base)) in
        Some (base =? 10, v, s)
  end.

(** The integer part and the rest, rjs_lex.c:524-739 *)
Definition number_from (md : mode) (no_sep legacy : bool) (base : Z) (s : list Z)
  : option (bool * value * list Z) :=
  match int_loop no_sep legacy base false false s with
  | None => None
  | Some (b, w, t) => int_end md no_sep legacy b w t
  end.

(** lex_number, rjs_lex.c:459-739 *)
Definition lex_number (md : mode) (s : list Z) : option (bool * value * list Z) :=
  let no_sep := from_string md in
  match s with
  | [] => number_from md no_sep false 10 s
  | a :: r =>
      if a =? 46 then int_end md no_sep false 10 [] s
      else if a =? 48 then
        match r with
        | [] => number_from md no_sep false 10 s
        | c :: t =>
            if (c =? 98) || (c =? 66) then number_from md no_sep false 2 t
            else if (c =? 111) || (c =? 79) then number_from md no_sep false 8 t
            else if (c =? 120) || (c =? 88) then number_from md no_sep false 16 t
            else if negb (from_string md) && is_octal c then number_from md true true 8 r
            else if c =? 95 then None
            else if (c =? 56) || (c =? 57) then number_from md true true 10 s
            else number_from md no_sep false 10 s
        end
      else number_from md no_sep false 10 s
  end.

(** ** Tokens *)

(** White space and comments, rjs_lex.c:1312-1342, lex_single_line_comment
    118-132, lex_multi_line_comment 135-163. *)
Inductive place := Code | Line | Block.
Fixpoint skip (m : place) (s : list Z) : option (list Z) :=
  match s with
  | [] => match m with Block => None | _ => Some [] end
  | c :: r =>
      match m with
      | Code =>
          if c =? 47 then
            match r with
            | d :: t => if d =? 47 then skip Line t else if d =? 42 then skip Block t else Some s
            | [] => Some s
            end
          else if StrModel.is_white_space c then skip Code r
          else Some s
      | Line => if is_line_terminator c then skip Code r else skip Line r
      | Block =>
          if c =? 42 then
            match r with
            | d :: t => if d =? 47 then skip Code t else skip Block r
            | [] => None
            end
          else skip Block r
      end
  end.

(** lex_identifier, rjs_lex.c:823-883, with lex_unicode_escape 241-300.
    [esc]: inside of \u{, the value so far.  Every character is a
    continuation; the first one is tested by [lex_identifier]. *)
Fixpoint ident (esc : option Z) (s : list Z) : option (list Z * list Z) :=
  let put v r := match r with Some (w, t) => Some (v :: w, t) | None => None end in
  match s with
  | [] => match esc with None => Some ([], []) | Some _ => None end
  | c :: r =>
      match esc with
      | Some v =>
          if c =? 125 then (if id_continue v then put v (ident None r) else None)
          else if is_xdigit c then
            let v' := v * 16 + hex_value c in
            if 0x10ffff <? v' then None else ident (Some v') r
          else None
      | None =>
          if c =? 92 then
            match r with
            | u :: r1 =>
                if u =? 117 then
                  match r1 with
                  | x1 :: r2 =>
                      if x1 =? 123 then ident (Some 0) r2
                      else
                        match r2 with
                        | x2 :: x3 :: x4 :: r3 =>
                            if is_xdigit x1 && is_xdigit x2 && is_xdigit x3 && is_xdigit x4 then
                              let v := ((hex_value x1 * 16 + hex_value x2) * 16 + hex_value x3) * 16 + hex_value x4 in
                              if id_continue v then put v (ident None r3) else None
                            else None
                        | _ => None
                        end
                  | [] => None
                  end
                else Some ([], s)
            | [] => Some ([], s)
            end
          else if id_continue c then put c (ident None r)
          else Some ([], s)
      end
  end.

Definition lex_identifier (s : list Z) : option (list Z * list Z) :=
  match ident None s with
  | Some (c :: w, t) => if id_start c then Some (c :: w, t) else None
  | _ => None
  end.

Inductive token :=
| TEnd
| TPlus
| TMinus
| TNum (decimal : bool) (v : value)
| TName (w : list Z)
| TOther.

(** rjs_lex_get_token, rjs_lex.c:1279-1427, without the hashbang comment (the
    status RJS_LEX_ST_FIRST_TOKEN is cleared).  The punctuators that begin with
    a sign are + ++ += - -- -=. *)
Definition get_token (md : mode) (s : list Z) : option (token * list Z) :=
  let number t := match lex_number md t with
                  | Some (d, v, r) => Some (TNum d v, r)
                  | None => None
                  end in
  let name t := match lex_identifier t with
                | Some (w, r) => Some (TName w, r)
                | None => None
                end in
  match skip Code s with
  | None => None
  | Some [] => Some (TEnd, [])
  | Some ((c :: r) as t) =>
      if c =? 46 then if begins is_digit r then number t else Some (TOther, [])
      else if c =? 92 then if begins (Z.eqb 117) r then name t else Some (TOther, [])
      else if (c =? 34) || (c =? 39) || (c =? 47) || (c =? 96) || (c =? 123) || (c =? 125) || (c =? 35)
      then Some (TOther, [])
      else if is_digit c then number t
      else if id_start c then name t
      else if c =? 43 then
        if begins (fun d => (d =? 43) || (d =? 61)) r then Some (TOther, []) else Some (TPlus, r)
      else if c =? 45 then
        if begins (fun d => (d =? 45) || (d =? 61)) r then Some (TOther, []) else Some (TMinus, r)
      else Some (TOther, [])
  end.

(** ** parse_string, rjs_string.c:588-715 *)

Definition text_infinity : list Z := [73; 110; 102; 105; 110; 105; 116; 121].
Definition is_infinity (w : list Z) : bool :=
  if list_eq_dec Z.eq_dec w text_infinity then true else false.

Inductive sign := Nothing | Positive | Negative.
Definition is_negative (g : sign) : bool := match g with Negative => true | _ => false end.
Definition has_sign (g : sign) : bool := match g with Nothing => false | _ => true end.

Definition negate (n : num) : num :=
  match n with
  | Zero g => Zero (negb g)
  | Fin g m e => Fin (negb g) m e
  | Inf g => Inf (negb g)
  | Nan => Nan
  end.

(** The sign and the token after it, 613-624. *)
Definition signed_token (md : mode) (s : list Z) : option (sign * token * list Z) :=
  match get_token md s with
  | None => None
  | Some (TPlus, r) => match get_token md r with Some (t, r') => Some (Positive, t, r') | None => None end
  | Some (TMinus, r) => match get_token md r with Some (t, r') => Some (Negative, t, r') | None => None end
  | Some (t, r) => Some (Nothing, t, r)
  end.

(** The next token is the end, 651-652 and 692-696. *)
Definition at_end (md : mode) (s : list Z) : bool :=
  match get_token md s with Some (TEnd, _) => true | _ => false end.

Definition number_mode : mode := Mode true false false.
Definition big_mode : mode := Mode true true false.

(** rjs_string_to_number *)
Definition string_to_number (s : list Z) : num :=
  match signed_token number_mode s with
  | Some (g, TNum dec v, r) =>
      if has_sign g && negb dec then Nan
      else
        match v with
        | VNum n => if at_end number_mode r then (if is_negative g then negate n else n) else Nan
        | VBig _ => Nan
        end
  | Some (g, TName w, r) =>
      if is_infinity w && at_end number_mode r then Inf (is_negative g) else Nan
  | Some (g, TEnd, _) => if has_sign g then Nan else Zero false
  | _ => Nan
  end.

(** rjs_string_to_big_int; [None]: undefined *)
Definition string_to_big_int (s : list Z) : option BigModel.bi :=
  match signed_token big_mode s with
  | Some (g, TNum dec v, r) =>
      if has_sign g && negb dec then None
      else
        match v with
        | VBig b =>
            if at_end big_mode r then Some (if is_negative g then BigModel.unary_minus b else b) else None
        | VNum _ => None
        end
  | Some (g, TEnd, _) => if has_sign g then None else Some BigModel.bi0
  | _ => None
  end.
End Lexer.

(** ** parseInt and parseFloat *)

(** rjs_string_trim at both ends (StrModel.trim, property C41) *)
Definition trim (s : list Z) : list Z :=
  rev (snd (span StrModel.is_white_space (rev (snd (span StrModel.is_white_space s))))).

(** The C string ends at the first 0. *)
Definition c_string (s : list Z) : list Z := fst (span (fun c => negb (c =? 0)) s).

Definition same_place (a b : list Z) : bool := Nat.eqb (length a) (length b).

(** global_parseInt, rjs_global_object.c:178-240; [radix] is ToInt32 of the
    argument *)
Definition parse_int (s : list Z) (radix : Z) : num :=
  if negb (radix =? 0) && ((radix <? 2) || (36 <? radix)) then Nan
  else
    match c_string (trim s) with
    | [] => Nan
    | t =>
        let '(d, r) := strtoi t radix in
        if same_place r t then Nan
        else match d with Inf _ => Nan | _ => d end
    end.

(** global_parseFloat, rjs_global_object.c:134-175; [erange]: errno is ERANGE
    before the call.  rjs_strtod sets it when it returns an infinity for a
    number, and does not clear it. *)
Definition parse_float (erange : bool) (s : list Z) : num :=
  match c_string (trim s) with
  | [] => Nan
  | t =>
      let '(d, r) := strtod t in
      if same_place r t then Nan
      else
        match d with
        | Inf g =>
            let named := begins (fun c => negb (is_digit c || (c =? 46)))
                           (match strtod_sign t with Some (_, u) => u | None => [] end) in
            if erange || negb named then Nan else Inf g
        | _ => d
        end
  end.
