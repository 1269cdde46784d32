(** Model of JSON.parse and JSON.stringify: the character input
    (src/lib/rjs_input.c), the JSON side of the lexer (src/lib/rjs_lex.c), the
    parser and the serializer (src/lib/rjs_json_opt.c).

    The unread part of the input is the list of its remaining UTF-16 units;
    pushing a character back is going back to the earlier list (that the C
    position counter does this is proved in InputProofs.v).  -1 is RJS_INPUT_END.
    The lexer keeps a sticky error flag (RJS_LEX_ST_ERROR); here it is the
    boolean [err] of each result.
    A number keeps the text handed to rjs_strtod / rjs_strtoi and its base.
    The class of identifier characters comes from ICU and is a parameter
    [ids]/[idc] (rjs_uchar_is_id_start / _continue).
    Not modelled: locations and messages, the GC, the C stack depth, setters on
    Array.prototype (parse_array stores with [[Set]]), rt->parser (null here). *)
From Coq Require Import List ZArith Bool String Ascii.
From Verif Require Import StrModel.
Import ListNotations.
Local Open Scope Z_scope.

Fixpoint zs (s : string) : str :=
  match s with EmptyString => [] | String a r => Z.of_nat (nat_of_ascii a) :: zs r end.

(** rjs_input_get_uc, rjs_input.c:216-259 with RJS_INPUT_FL_CRLF_TO_LF, which
    json_from_input sets (rjs_json_opt.c:391) *)
Definition get (s : str) : Z * str :=
  match s with
  | [] => (-1, [])
  | c :: r =>
      if is_leading c then
        match r with
        | t :: r' => if is_trailing t then (pair_to_uc c t, r') else (c, r)
        | [] => (c, r)
        end
      else if c =? 13 then
        match r with
        | d :: r' => if d =? 10 then (10, r') else (10, r)
        | [] => (10, r)
        end
      else (c, r)
  end.

(** Character classes, include/rjs_uchar.h:44-75 and 157-161 *)
Definition is_octal (c : Z) : bool := (48 <=? c) && (c <=? 55).
Definition is_xdigit (c : Z) : bool :=
  ((48 <=? c) && (c <=? 57)) || ((97 <=? c) && (c <=? 102)) || ((65 <=? c) && (c <=? 70)).
Definition is_line_terminator (c : Z) : bool :=
  (c =? 10) || (c =? 13) || (c =? 0x2028) || (c =? 0x2029).
(** rjs_hex_char_to_number, include/rjs_uchar.h:106-117 (argument is a hexadecimal character) *)
Definition hex_val (c : Z) : Z :=
  if (97 <=? c) && (c <=? 102) then c - 97 + 10
  else if (65 <=? c) && (c <=? 70) then c - 65 + 10 else c - 48.
(** rjs_number_to_hex_char_l, include/rjs_uchar.h:124-133 *)
Definition hex_char_l (n : Z) : Z := if n <=? 9 then n + 48 else n - 10 + 97.

(** Outcome of a lexer routine: a result, undefined behaviour, or the model ran
    out of fuel (never happens: C43_terminates). *)
Inductive lres (A : Type) := LOk (a : A) | LUB | LFuel.
Arguments LOk {A}. Arguments LUB {A}. Arguments LFuel {A}.
Definition lbind {A B} (x : lres A) (f : A -> lres B) : lres B :=
  match x with LOk a => f a | LUB => LUB | LFuel => LFuel end.
Notation "'let!' x := m 'in' k" := (lbind m (fun x => k)) (at level 200, x pattern, m at level 100, k at level 200).

(** lex_single_line_comment, rjs_lex.c:123-137 *)
Fixpoint line_comment (fuel : nat) (s : str) : lres str :=
  match fuel with
  | O => LFuel
  | S f => let '(c, r) := get s in
           if (c <? 0) || is_line_terminator c then LOk r else line_comment f r
  end.

(** lex_multi_line_comment, rjs_lex.c:140-167; the boolean is the error flag *)
Fixpoint block_comment (fuel : nat) (s : str) : lres (str * bool) :=
  match fuel with
  | O => LFuel
  | S f => let '(c, r) := get s in
           if c =? 42 then
             let '(c1, r1) := get r in
             if c1 =? 47 then LOk (r1, false) else block_comment f r
           else if c =? -1 then LOk (r, true)
           else block_comment f r
  end.

(** lex_octal_escape, rjs_lex.c:170-193 *)
Definition octal_escape (s : str) : Z * str :=
  let '(c1, r1) := get s in
  let '(c2, r2) := get r1 in
  let '(c3, r3) := get r2 in
  if (48 <=? c1) && (c1 <=? 51) && is_octal c2 && is_octal c3
  then (Z.lor (Z.lor (Z.shiftl (c1 - 48) 6) (Z.shiftl (c2 - 48) 3)) (c3 - 48), r3)
  else if is_octal c1 && is_octal c2
  then (Z.lor (Z.shiftl (c1 - 48) 3) (c2 - 48), r2)
  else (c1 - 48, r1).

(** Result of an escape: its value or -1, the error flag, the characters appended
    to the text buffers on the way, the rest.  In a template ([templ]) a bad
    escape only gives a warning. *)
Definition esc := (Z * bool * str * str)%type.

(** lex_hex_char + the fixed width loops of lex_hex_escape (216-238) and
    lex_unicode_escape (286-296), rjs_lex.c:196-300: [n] digits *)
Fixpoint hex_digits (templ : bool) (n : nat) (s : str) (v : Z) (app : str) : esc :=
  match n with
  | O => (v, false, app, s)
  | S n' => let '(c, r) := get s in
            if is_xdigit c
            then hex_digits templ n' r (Z.lor (Z.shiftl v 4) (hex_val c)) (append_uc app c)
            else (-1, negb templ, app, s)
  end.

(** lex_unicode_escape, rjs_lex.c:250-283: the loop of the braced form.  Shifting the
    negative value left by a code point that is too big is undefined. *)
Fixpoint brace_digits (templ : bool) (fuel : nat) (s : str) (v : Z) (err : bool) (app : str) : lres esc :=
  match fuel with
  | O => LFuel
  | S f =>
      let '(c, r) := get s in
      if c =? -1 then LOk (v, err || negb templ, app, r)
      else if c =? 125 then LOk (v, err, append_uc app c, r)
      else if is_xdigit c then
        if v <? 0 then LUB
        else
          let v' := Z.lor (Z.shiftl v 4) (hex_val c) in
          if 0x10ffff <? v' then brace_digits templ f r (-1) (err || negb templ) (append_uc app c)
          else brace_digits templ f r v' err (append_uc app c)
      else LOk (-1, err || negb templ, app, s)
  end.

(** lex_unicode_escape, rjs_lex.c:241-300 *)
Definition unicode_escape (templ : bool) (fuel : nat) (s : str) (app : str) : lres esc :=
  let '(c, r) := get s in
  if c =? 123 then brace_digits templ fuel r 0 false (append_uc app c)
  else LOk (hex_digits templ 4 s 0 app).

(** lex_string, rjs_lex.c:303-414: [start] is the opening quote.  The surrogate check of
    416-438 only sets a token flag and is left out. *)
Fixpoint lex_string (start : Z) (fuel : nat) (s : str) (acc : str) (err : bool) : lres (str * bool * str) :=
  match fuel with
  | O => LFuel
  | S f =>
      let '(c, r) := get s in
      if c =? start then LOk (acc, err, r)
      else if c =? -1 then LOk (acc, true, r)
      else if negb (c =? 0x2028) && negb (c =? 0x2029) && is_line_terminator c then LOk (acc, true, r)
      else if c =? 92 then
        let '(c1, r1) := get r in
        if c1 =? -1 then LOk (acc, true, r1)
        else if c1 =? 98 then lex_string start f r1 (append_uc acc 8) err
        else if c1 =? 102 then lex_string start f r1 (append_uc acc 12) err
        else if c1 =? 110 then lex_string start f r1 (append_uc acc 10) err
        else if c1 =? 114 then lex_string start f r1 (append_uc acc 13) err
        else if c1 =? 116 then lex_string start f r1 (append_uc acc 9) err
        else if c1 =? 118 then lex_string start f r1 (append_uc acc 11) err
        else if c1 =? 120 then
          let '(v, e, _, r2) := hex_digits false 2 r1 0 [] in
          if 0 <=? v then lex_string start f r2 (append_uc acc v) (err || e)
          else lex_string start f r2 acc true
        else if c1 =? 117 then
          let! (v, e, _, r2) := unicode_escape false f r1 [] in
          if 0 <=? v then lex_string start f r2 (append_uc acc v) (err || e)
          else lex_string start f r2 acc true
        else if is_digit c1 then
          if (c1 =? 48) && negb (is_digit (fst (get r1))) then lex_string start f r1 (append_uc acc 0) err
          else if (c1 =? 56) || (c1 =? 57) then lex_string start f r1 (append_uc acc c1) err
          else let '(v, r2) := octal_escape r in lex_string start f r2 (append_uc acc v) err
        else if negb (is_line_terminator c1) then lex_string start f r1 (append_uc acc c1) err
        else lex_string start f r1 acc err
      else lex_string start f r (append_uc acc c) err
  end.

(** lex_template in JSON mode, rjs_lex.c:1092-1228: [acc] is uc_text.  A failed escape
    leaves its text in the buffer and sets escape_error, which JSON ignores. *)
Fixpoint lex_template (fuel : nat) (s : str) (acc : str) : lres (str * bool * str) :=
  match fuel with
  | O => LFuel
  | S f =>
      let '(c, r) := get s in
      if c =? -1 then LOk (acc, true, r)
      else if c =? 96 then LOk (acc, false, r)
      else if c =? 92 then
        let '(c1, r1) := get r in
        if c1 =? 98 then lex_template f r1 (append_uc acc 8)
        else if c1 =? 102 then lex_template f r1 (append_uc acc 12)
        else if c1 =? 110 then lex_template f r1 (append_uc acc 10)
        else if c1 =? 114 then lex_template f r1 (append_uc acc 13)
        else if c1 =? 116 then lex_template f r1 (append_uc acc 9)
        else if c1 =? 118 then lex_template f r1 (append_uc acc 11)
        else if c1 =? 120 then
          let '(v, _, a, r2) := hex_digits true 2 r1 0 (acc ++ [92; 120]) in
          if 0 <=? v then lex_template f r2 (append_uc acc v) else lex_template f r2 a
        else if c1 =? 117 then
          let! (v, _, a, r2) := unicode_escape true f r1 (acc ++ [92; 117]) in
          if 0 <=? v then lex_template f r2 (append_uc acc v) else lex_template f r2 a
        else if c1 =? 48 then
          if negb (is_digit (fst (get r1))) then lex_template f r1 (append_uc acc 0)
          else lex_template f r1 (acc ++ [92])
        else if is_digit c1 then lex_template f r1 (acc ++ [92])
        else if is_line_terminator c1 then lex_template f r1 acc
        else lex_template f r1 (append_uc acc c1)
      else lex_template f r (append_uc acc c)
  end.

(** Digits of the bases 2, 8, 10, 16: the switch of rjs_lex.c:537-602 *)
Definition digit_in (base c : Z) : bool :=
  if base =? 2 then (c =? 48) || (c =? 49)
  else if base =? 8 then is_octal c
  else if base =? 10 then is_digit c
  else is_xdigit c.

(** lex_number, rjs_lex.c:526-607: the integer digits.  [None]: an error return;
    otherwise the place of the character that ended the digits, the text and the base.
    [dn] says whether a digit was seen. *)
Fixpoint int_digits (legacy no_sep : bool) (fuel : nat) (base : Z) (s : str) (dn can_sep : bool) (acc : str)
  : lres (option (str * str * Z)) :=
  match fuel with
  | O => LFuel
  | S f =>
      let '(c, r) := get s in
      if negb no_sep && (c =? 95) && can_sep then int_digits legacy no_sep f base r dn false acc
      else if digit_in base c then int_digits legacy no_sep f base r true true (acc ++ [c])
      else if (base =? 8) && legacy && (is_digit c || (c =? 46) || (c =? 101) || (c =? 69))
      then int_digits legacy no_sep f 10 r true true (acc ++ [c])
      else if negb dn then LOk None
      else if negb no_sep && negb can_sep then LOk None
      else LOk (Some (s, acc, base))
  end.

(** lex_number, rjs_lex.c:620-640 and 658-680: the digit loops of fraction and exponent *)
Fixpoint dec_digits (no_sep : bool) (fuel : nat) (s : str) (dn can_sep : bool) (acc : str)
  : lres (str * bool * bool * str) :=
  match fuel with
  | O => LFuel
  | S f =>
      let '(c, r) := get s in
      if negb no_sep && can_sep && (c =? 95) then dec_digits no_sep f r dn false acc
      else if is_digit c then dec_digits no_sep f r true true (acc ++ [c])
      else LOk (s, dn, can_sep, acc)
  end.

(** A number token: base and text *)
Inductive token :=
| TEnd | TLbrace | TRbrace | TLbracket | TRbracket | TComma | TColon | TPlus | TMinus
| TString (s : str) | TNumber (base : Z) (text : str) | TBigInt (base : Z) (text : str)
| TIdentifier (s : str).

(** What rjs_lex_get_json_token leaves: token, error flag, rest *)
Definition tres := (token * bool * str)%type.

(** The end of lex_number, rjs_lex.c:684-743 (rt->parser is null) *)
Definition number_end (ids : Z -> bool) (legacy is_float : bool) (base : Z) (acc s : str) : tres :=
  let '(c, r) := get s in
  if (c =? 110) && negb legacy && negb is_float then
    let '(c', _) := get r in
    (TBigInt base acc, is_digit c' || ids c', r)
  else (TNumber base acc, is_digit c || ids c, s).

Definition number_error : tres := (TNumber 10 [48], true, []).

(** lex_number, rjs_lex.c:645-682: the exponent *)
Definition number_exp (ids : Z -> bool) (legacy no_sep is_float : bool) (fuel : nat) (acc s : str) : lres tres :=
  let '(c, r) := get s in
  if (c =? 101) || (c =? 69) then
    let '(c1, r1) := get r in
    let '(acc', s') := if (c1 =? 43) || (c1 =? 45) then (acc ++ [c; c1], r1) else (acc ++ [c], r) in
    let! (s2, dn, can_sep, acc2) := dec_digits no_sep fuel s' false false acc' in
    if negb dn then LOk number_error
    else if negb no_sep && negb can_sep then LOk number_error
    else LOk (number_end ids legacy true 10 acc2 s2)
  else LOk (number_end ids legacy is_float 10 acc s).

(** lex_number, rjs_lex.c:609-682: after int_end *)
Definition number_tail (ids : Z -> bool) (legacy no_sep : bool) (fuel : nat) (base : Z) (acc s : str) : lres tres :=
  if base =? 10 then
    let '(c, r) := get s in
    if c =? 46 then
      let! (s2, dn, can_sep, acc2) := dec_digits no_sep fuel r false false (acc ++ [46]) in
      if negb no_sep && dn && negb can_sep then LOk number_error
      else number_exp ids legacy no_sep true fuel acc2 s2
    else number_exp ids legacy no_sep false fuel acc s
  else LOk (number_end ids legacy false base acc s).

(** The integer digits followed by the rest of the number *)
Definition number_int (ids : Z -> bool) (legacy no_sep : bool) (fuel : nat) (base : Z) (s : str) : lres tres :=
  let! d := int_digits legacy no_sep fuel base s false false [] in
  match d with
  | None => LOk number_error
  | Some (s', acc, base') => number_tail ids legacy no_sep fuel base' acc s'
  end.

(** lex_number, rjs_lex.c:461-524 (lex->flags and the NO_SEP / NO_LEGACY_OCT
    status bits are clear for JSON) *)
Definition lex_number (ids : Z -> bool) (fuel : nat) (s : str) : lres tres :=
  let '(c, r) := get s in
  if c =? 46 then number_tail ids false false fuel 10 [] s
  else if c =? 48 then
    let '(c1, r1) := get r in
    if (c1 =? 98) || (c1 =? 66) then number_int ids false false fuel 2 r1
    else if (c1 =? 111) || (c1 =? 79) then number_int ids false false fuel 8 r1
    else if (c1 =? 120) || (c1 =? 88) then number_int ids false false fuel 16 r1
    else if is_octal c1 then number_int ids true true fuel 8 r
    else if c1 =? 95 then LOk number_error
    else
      let leg := (c1 =? 56) || (c1 =? 57) in
      number_int ids leg leg fuel 10 s
  else number_int ids false false fuel 10 s.

(** lex_identifier, rjs_lex.c:842-868: the characters after the first *)
Fixpoint id_rest (idc : Z -> bool) (fuel : nat) (s : str) (acc : str) : lres (str * bool * str) :=
  match fuel with
  | O => LFuel
  | S f =>
      let '(c, r) := get s in
      if c =? 92 then
        let '(c1, r1) := get r in
        if c1 =? 117 then
          let! (v, e, _, r2) := unicode_escape false f r1 [] in
          if v <? 0 then LOk (acc, true, r2)
          else if e then LOk (acc, true, r2)
          else if idc v then id_rest idc f r2 (append_uc acc v)
          else LOk (acc, true, r2)
        else LOk (acc, false, s)
      else if idc c then id_rest idc f r (append_uc acc c)
      else LOk (acc, false, s)
  end.

(** lex_identifier, rjs_lex.c:816-923 (the reserved word table is skipped in JSON mode) *)
Definition lex_identifier (ids idc : Z -> bool) (fuel : nat) (s : str) : lres tres :=
  let finish x := let! (acc, e, r) := x in LOk (TIdentifier acc, e, r) in
  let '(c, r) := get s in
  if c =? 92 then
    let '(c1, r1) := get r in
    if c1 =? 117 then
      let! (v, e, _, r2) := unicode_escape false fuel r1 [] in
      if v <? 0 then LOk (TIdentifier [], true, r2)
      else if e then LOk (TIdentifier [], true, r2)
      else if ids v then finish (id_rest idc fuel r2 (append_uc [] v))
      else LOk (TIdentifier [], true, r2)
    else LOk (TIdentifier [], true, r1)
  else if ids c then finish (id_rest idc fuel r (append_uc [] c))
  else LOk (TIdentifier [], true, r).

(** rjs_lex_get_json_token, rjs_lex.c:1451-1477: skip white space and comments.
    The results are the first other character, the place before it and behind it,
    and the error flag; -1 is the end. *)
Fixpoint skip_space (fuel : nat) (s : str) (err : bool) : lres (Z * str * str * bool) :=
  match fuel with
  | O => LFuel
  | S f =>
      let '(c, r) := get s in
      if c =? -1 then LOk (c, s, r, err)
      else if c =? 47 then
        let '(c1, r1) := get r in
        if c1 =? 47 then let! r2 := line_comment f r1 in skip_space f r2 err
        else if c1 =? 42 then let! (r2, e) := block_comment f r1 in skip_space f r2 (err || e)
        else LOk (c, s, r, err)
      else if is_white_space c then skip_space f r err
      else LOk (c, s, r, err)
  end.

(** rjs_lex_get_json_token, rjs_lex.c:1442-1550 *)
Definition lex_token (ids idc : Z -> bool) (fuel : nat) (s : str) : lres tres :=
  let! (c, s0, r, err) := skip_space fuel s false in
  let! (t, e, r') :=
    (if c =? -1 then LOk (TEnd, false, r)
     else if (c =? 34) || (c =? 39) then let! (v, e, r') := lex_string c fuel r [] false in LOk (TString v, e, r')
     else if c =? 96 then let! (v, e, r') := lex_template fuel r [] in LOk (TString v, e, r')
     else if c =? 46 then lex_number ids fuel s0
     else if c =? 123 then LOk (TLbrace, false, r)
     else if c =? 125 then LOk (TRbrace, false, r)
     else if c =? 91 then LOk (TLbracket, false, r)
     else if c =? 93 then LOk (TRbracket, false, r)
     else if c =? 44 then LOk (TComma, false, r)
     else if c =? 58 then LOk (TColon, false, r)
     else if c =? 43 then LOk (TPlus, false, r)
     else if c =? 45 then LOk (TMinus, false, r)
     else if c =? 92 then lex_identifier ids idc fuel s0
     else if is_digit c then lex_number ids fuel s0
     else if ids c then lex_identifier ids idc fuel s0
     else LOk (TIdentifier [], true, s0)) in
  LOk (t, err || e, r').

(** Values built by the parser: numbers keep their text; an object is the list of
    the properties in creation order. *)
Inductive jval :=
| JNull | JBool (b : bool) | JNum (neg : bool) (base : Z) (text : str)
| JInf (neg : bool) | JNaN | JBig (base : Z) (text : str)
| JStr (s : str) | JArr (l : list jval) | JObj (l : list (str * jval)).

Fixpoint str_eqb (a b : str) : bool :=
  match a, b with
  | [], [] => true
  | x :: a', y :: b' => (x =? y) && str_eqb a' b'
  | _, _ => false
  end.

(** rjs_create_data_property_or_throw on the fresh ordinary object: replace the value
    in place or append the property *)
Fixpoint put (k : str) (v : jval) (l : list (str * jval)) : list (str * jval) :=
  match l with
  | [] => [(k, v)]
  | (k', v') :: l' => if str_eqb k k' then (k', v) :: l' else (k', v') :: put k v l'
  end.

(** The parser state: the cached token (jp->cached, jp->token) and the input *)
Definition pst := (option token * str)%type.

(** Outcome of the parser: value, SyntaxError, undefined behaviour (failed assertion
    or invalid read), out of fuel *)
Inductive pres (A : Type) := POk (a : A) | PErr | PUB | PFuel.
Arguments POk {A}. Arguments PErr {A}. Arguments PUB {A}. Arguments PFuel {A}.
Definition pbind {A B} (x : pres A) (f : A -> pres B) : pres B :=
  match x with POk a => f a | PErr => PErr | PUB => PUB | PFuel => PFuel end.
Notation "'let?' x := m 'in' k" := (pbind m (fun x => k)) (at level 200, x pattern, m at level 100, k at level 200).

Section Parser.
Variables ids idc : Z -> bool.

(** get_json_token, rjs_json_opt.c:73-88 *)
Definition get_token (st : pst) : pres (token * pst) :=
  match st with
  | (Some t, s) => POk (t, (None, s))
  | (None, s) =>
      match lex_token ids idc (S (List.length s)) s with
      | LOk (t, false, r) => POk (t, (None, r))
      | LOk (_, true, _) => PErr
      | LUB => PUB
      | LFuel => PFuel
      end
  end.

(** unget_json_token, rjs_json_opt.c:90-97 *)
Definition unget_token (t : token) (st : pst) : pst := (Some t, snd st).

(** parse_json_number, rjs_json_opt.c:258-290 *)
Definition parse_json_number (st : pst) : pres (jval * pst) :=
  let? (t, st) := get_token st in
  match t with
  | TNumber b x => POk (JNum false b x, st)
  | TBigInt b x => POk (JBig b x, st)
  | TIdentifier n =>
      if str_eqb n (zs "Infinity"%string) then POk (JInf false, st)
      else if str_eqb n (zs "NaN"%string) then POk (JNaN, st)
      else PErr
  | _ => PErr
  end.

(** The TOKEN_minus case of parse_value, rjs_json_opt.c:317-324: rjs_value_get_number
    asserts that the value is a number *)
Definition negate (v : jval) : pres jval :=
  match v with
  | JNum n b x => POk (JNum (negb n) b x)
  | JInf n => POk (JInf (negb n))
  | JNaN => POk JNaN
  | _ => PUB
  end.

(** parse_value, rjs_json_opt.c:293-359; parse_array, 142-188; parse_object, 191-255.
    The two loops are [array_loop] and [object_loop]. *)
Fixpoint parse_value (fuel : nat) (st : pst) : pres (jval * pst) :=
  match fuel with
  | O => PFuel
  | S f =>
      let? (t, st) := get_token st in
      match t with
      | TLbracket => let? (l, st) := array_loop f st [] in POk (JArr l, st)
      | TLbrace => let? (l, st) := object_loop f st [] in POk (JObj l, st)
      | TString s => POk (JStr s, st)
      | TNumber b x => POk (JNum false b x, st)
      | TBigInt b x => POk (JBig b x, st)
      | TPlus => parse_json_number st
      | TMinus => let? (v, st) := parse_json_number st in let? v := negate v in POk (v, st)
      | TIdentifier n =>
          if str_eqb n (zs "null"%string) then POk (JNull, st)
          else if str_eqb n (zs "true"%string) then POk (JBool true, st)
          else if str_eqb n (zs "false"%string) then POk (JBool false, st)
          else if str_eqb n (zs "Infinity"%string) then POk (JInf false, st)
          else if str_eqb n (zs "NaN"%string) then POk (JNaN, st)
          else PErr
      | _ => PErr
      end
  end
with array_loop (fuel : nat) (st : pst) (acc : list jval) : pres (list jval * pst) :=
  match fuel with
  | O => PFuel
  | S f =>
      let? (t, st) := get_token st in
      match t with
      | TRbracket => POk (acc, st)
      | _ =>
          let? (v, st) := parse_value f (unget_token t st) in
          let acc := acc ++ [v] in
          let? (t, st) := get_token st in
          match t with
          | TRbracket => POk (acc, st)
          | TComma => array_loop f st acc
          | _ => PErr
          end
      end
  end
with object_loop (fuel : nat) (st : pst) (acc : list (str * jval)) : pres (list (str * jval) * pst) :=
  match fuel with
  | O => PFuel
  | S f =>
      let? (t, st) := get_token st in
      match t with
      | TRbrace => POk (acc, st)
      | TString k | TIdentifier k =>
          let? (t, st) := get_token st in
          match t with
          | TColon =>
              let? (v, st) := parse_value f st in
              let acc := put k v acc in
              let? (t, st) := get_token st in
              match t with
              | TRbrace => POk (acc, st)
              | TComma => object_loop f st acc
              | _ => PErr
              end
          | _ => PErr
          end
      | _ => PErr
      end
  end.

(** parse_json and json_from_input, rjs_json_opt.c:362-404: JSON.parse without reviver *)
Definition json_parse (text : str) : pres jval :=
  let? (v, st) := parse_value (2 * List.length text + 2) (None, text) in
  let? (t, _) := get_token st in
  match t with TEnd => POk v | _ => PErr end.

End Parser.

(** quote_json_string, rjs_json_opt.c:485-569: the switch on the code point *)
Definition quote_uc (uc : Z) : str :=
  if uc =? 8 then zs "\b"%string else if uc =? 9 then zs "\t"%string else if uc =? 10 then zs "\n"%string
  else if uc =? 12 then zs "\f"%string else if uc =? 13 then zs "\r"%string
  else if uc =? 34 then [92; 34] else if uc =? 92 then [92; 92]
  else if (uc <? 0x20) || ((0xd800 <=? uc) && (uc <=? 0xdfff)) then
    [92; 117; hex_char_l (Z.shiftr uc 12); hex_char_l (Z.land (Z.shiftr uc 8) 0xf);
     hex_char_l (Z.land (Z.shiftr uc 4) 0xf); hex_char_l (Z.land uc 0xf)]
  else append_uc [] uc.

(** quote_json_string, rjs_json_opt.c:485-569: the loop over the string *)
Fixpoint quote_loop (fuel : nat) (s : str) : str :=
  match fuel with
  | O => []
  | S f =>
      match s with
      | [] => []
      | c :: r =>
          match r with
          | t :: r' => if is_leading c && is_trailing t then quote_uc (pair_to_uc c t) ++ quote_loop f r'
                       else quote_uc c ++ quote_loop f r
          | [] => quote_uc c
          end
      end
  end.

Definition quote (s : str) : str := [34] ++ quote_loop (List.length s) s ++ [34].

(** What serialize_json_property finds after toJSON and the replacer: the value tree as
    read by property access.  Anything else (undefined, symbols, functions) is [SUndef];
    a number carries the text of rjs_to_string. *)
Inductive sval :=
| SNull | SBool (b : bool) | SNumber (finite : bool) (text : str) | SBig | SString (s : str)
| SArr (l : list sval) | SObj (l : list (str * sval)) | SUndef.

(** gap: js->gap, None when absent; indent: js->indent (used only with a gap).
    serialize_json_array 587-664, serialize_key_value 667-684, serialize_json_object
    687-815 (no property list), serialize_json_property 818-934: rjs_json_opt.c.
    The result is Some text, or None for undefined; a BigInt throws. *)
Definition nl (gap : option str) (indent : str) : str :=
  match gap with None => [] | Some _ => 10 :: indent end.
Definition deeper (gap : option str) (indent : str) : str :=
  match gap with None => indent | Some g => indent ++ g end.
Definition colon (gap : option str) : str :=
  match gap with None => [58] | Some _ => [58; 32] end.

Fixpoint serialize (gap : option str) (indent : str) (v : sval) : sres (option str) :=
  match v with
  | SNull => SOk (Some (zs "null"%string))
  | SBool b => SOk (Some (zs (if b then "true"%string else "false"%string)))
  | SString s => SOk (Some (quote s))
  | SNumber fin t => SOk (Some (if fin then t else zs "null"%string))
  | SBig => SThrow
  | SUndef => SOk None
  | SArr l =>
      let ind := deeper gap indent in
      let fix items (first : bool) (l : list sval) : sres str :=
        match l with
        | [] => SOk []
        | x :: l' =>
            do o <- serialize gap ind x;
            do rest <- items false l';
            SOk ((if first then [] else [44]) ++ nl gap ind ++
                 (match o with None => zs "null"%string | Some t => t end) ++ rest)
        end in
      do body <- items true l;
      SOk (Some ([91] ++ body ++ (match l with [] => [] | _ => nl gap indent end) ++ [93]))
  | SObj l =>
      let ind := deeper gap indent in
      let fix members (empty : bool) (l : list (str * sval)) : sres (str * bool) :=
        match l with
        | [] => SOk ([], empty)
        | (k, x) :: l' =>
            do o <- serialize gap ind x;
            match o with
            | None => members empty l'
            | Some t =>
                do p <- members false l';
                SOk ((if empty then [] else [44]) ++ nl gap ind ++ quote k ++ colon gap ++ t ++ fst p, snd p)
            end
        end in
      do p <- members true l;
      SOk (Some ([123] ++ fst p ++ (if snd p then [] else nl gap indent) ++ [125]))
  end.

(** rjs_json_stringify, rjs_json_opt.c:1045-1070: a string [space] is cut to 10 units, an
    empty one is no gap *)
Definition gap_of_string (sp : str) : option str :=
  match sp with
  | [] => None
  | _ => if (10 <? List.length sp)%nat then Some (firstn 10 sp) else Some sp
  end.

(** rjs_json_stringify, rjs_json_opt.c:1025-1044: a number [space]; [n] is the result of
    ToIntegerOrInfinity and the conversion of RJS_MIN(n, 10) to ssize_t is undefined
    outside its range *)
Definition gap_of_number (n : num) : sres (option str) :=
  match n with
  | NInf => SUB
  | PInf => SOk (Some (repeat 32 10))
  | Fin z =>
      let m := Z.min z 10 in
      if m <? - 2 ^ 63 then SUB
      else SOk (if 1 <=? m then Some (repeat 32 (Z.to_nat m)) else None)
  end.

(** rjs_json_stringify, rjs_json_opt.c:947-1085 without replacer *)
Definition json_stringify (gap : option str) (v : sval) : sres (option str) := serialize gap [] v.
