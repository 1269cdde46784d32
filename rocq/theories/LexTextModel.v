(** * String, template and regular expression literals

    What is modelled: lex_octal_escape, lex_hex_char, lex_hex_escape,
    lex_unicode_escape and lex_string (src/lib/rjs_lex.c, 165-446), lex_regexp
    (995-1087) up to the creation of the regular expression, lex_template in
    programs (1090-1262), rjs_uchar_buffer_append_uc
    (src/lib/rjs_uchar_buffer.c, 59-80) and the counting of braces in
    rjs_lex_get_token (1374-1390).

    Simplifications.
    - The input is the list of code points still to be read; reading takes the
      head and pushing back puts it back (property C62 is about the real input).
      The end of the input, -1 in the code, is the empty list.
    - A lexical error makes the whole program an early error, so the model
      stops there ([Bad]); the code goes on reading to report more errors.
      Undefined behaviour ([Undef]) is the left shift of a negative number in
      lex_unicode_escape.
    - Texts and raw texts are lists of 16-bit units.
    - Which characters continue identifiers is taken from a library (ICU); it
      is a parameter. *)
Require Import ZArith List Bool.
Import ListNotations.
Local Open Scope Z_scope.

Inductive lres (A : Type) := Ok (a : A) | Bad | Undef.
Arguments Ok {A}. Arguments Bad {A}. Arguments Undef {A}.

(** ** Characters *)

(** src/lib/include/rjs_uchar.h:44-75 *)
Definition is_octal (c : Z) : bool := (48 <=? c) && (c <=? 55).
Definition is_digit (c : Z) : bool := (48 <=? c) && (c <=? 57).
Definition is_xdigit (c : Z) : bool :=
  ((48 <=? c) && (c <=? 57)) || ((97 <=? c) && (c <=? 102)) || ((65 <=? c) && (c <=? 70)).
(** rjs_hex_char_to_number, rjs_uchar.h:106-117 *)
Definition hex_value (c : Z) : Z :=
  if (97 <=? c) && (c <=? 102) then c - 97 + 10
  else if (65 <=? c) && (c <=? 70) then c - 65 + 10
  else c - 48.
(** rjs_uchar.h:157-161 *)
Definition is_line_terminator (c : Z) : bool :=
  (c =? 0x0a) || (c =? 0x0d) || (c =? 0x2028) || (c =? 0x2029).
(** rjs_uchar.h:333-385 *)
Definition is_leading (c : Z) : bool := (0xd800 <=? c) && (c <=? 0xdbff).
Definition is_trailing (c : Z) : bool := (0xdc00 <=? c) && (c <=? 0xdfff).

(** What rjs_uchar_buffer_append_uc appends, rjs_uchar_buffer.c:59-80, with
    rjs_uc_to_surrogate_pair, rjs_uchar.h:376-385. *)
Definition units (uc : Z) : list Z :=
  if 0xffff <? uc then
    let v := uc - 0x10000 in [Z.shiftr v 10 + 0xd800; Z.land v 0x3ff + 0xdc00]
  else [uc].

(** The character that would be read next; -1: the end. *)
Definition peek (s : list Z) : Z := match s with c :: _ => c | [] => -1 end.

(** ** Escapes *)

(** lex_octal_escape, 165-192: value and rest; called with a digit in front. *)
Definition octal_escape (s : list Z) : Z * list Z :=
  match s with
  | c1 :: r1 =>
      match r1 with
      | c2 :: r2 =>
          if (48 <=? c1) && (c1 <=? 51) && is_octal c2 && is_octal (peek r2)
          then (Z.lor (Z.lor (Z.shiftl (c1 - 48) 6) (Z.shiftl (c2 - 48) 3)) (peek r2 - 48), tl r2)
          else if is_octal c1 && is_octal c2
          then (Z.lor (Z.shiftl (c1 - 48) 3) (c2 - 48), r2)
          else (c1 - 48, r1)
      | [] => (c1 - 48, r1)
      end
  | [] => (-1 - 48, [])
  end.

(** The outcome of a \x or \u escape: a value, a bad escape, or undefined
    behaviour; [w] is what was appended to the texts on the way. *)
Inductive esc := EVal (v : Z) (w rest : list Z) | EBad (w rest : list Z) | EUndef.

Definition econs (c : Z) (e : esc) : esc :=
  match e with
  | EVal v w r => EVal v (c :: w) r
  | EBad w r => EBad (c :: w) r
  | EUndef => EUndef
  end.

(** lex_hex_char and the loops of lex_hex_escape (215-238) and of the
    unbraced lex_unicode_escape (285-297): [n] digits *)
Fixpoint hex_digits (n : nat) (s : list Z) (v : Z) : esc :=
  match n with
  | O => EVal v [] s
  | S n' =>
      match s with
      | c :: r =>
          if is_xdigit c then econs c (hex_digits n' r (Z.lor (Z.shiftl v 4) (hex_value c)))
          else EBad [] s
      | [] => EBad [] s
      end
  end.

(** lex_unicode_escape, 251-284: the digits in braces.  At the end of the input
    there is an error or (in templates) a warning. *)
Fixpoint brace_digits (templ : bool) (s : list Z) (v : Z) : esc :=
  match s with
  | [] => if templ && (0 <=? v) then EVal v [] [] else EBad [] []
  | c :: r =>
      if c =? 125 then (if 0 <=? v then EVal v [c] r else EBad [c] r)
      else if is_xdigit c then
        if v <? 0 then EUndef
        else
          let v' := Z.lor (Z.shiftl v 4) (hex_value c) in
          econs c (brace_digits templ r (if 0x10ffff <? v' then -1 else v'))
      else EBad [] s
  end.

(** lex_unicode_escape, 241-300 *)
Definition unicode_escape (templ : bool) (s : list Z) : esc :=
  match s with
  | c :: r => if c =? 123 then econs c (brace_digits templ r 0) else hex_digits 4 s 0
  | [] => hex_digits 4 s 0
  end.

(** The letters of the simple escapes, 343-360 and 1137-1166 *)
Definition simple_escape (c : Z) : option Z :=
  if c =? 98 then Some 8
  else if c =? 102 then Some 12
  else if c =? 110 then Some 10
  else if c =? 114 then Some 13
  else if c =? 116 then Some 9
  else if c =? 118 then Some 11
  else None.

(** ** Strings *)

(** One escape in a string, after the backslash (331-408): the units it
    appends, whether it is a legacy escape, the rest *)
Definition string_escape (s : list Z) : lres (list Z * bool * list Z) :=
  match s with
  | [] => Bad
  | c1 :: r =>
      match simple_escape c1 with
      | Some v => Ok (units v, false, r)
      | None =>
          if c1 =? 120 then
            match hex_digits 2 r 0 with
            | EVal v _ r' => Ok (units v, false, r')
            | EBad _ _ => Bad
            | EUndef => Undef
            end
          else if c1 =? 117 then
            match unicode_escape false r with
            | EVal v _ r' => Ok (units v, false, r')
            | EBad _ _ => Bad
            | EUndef => Undef
            end
          else if is_digit c1 then
            if (c1 =? 48) && negb (is_digit (peek r)) then Ok (units 0, false, r)
            else if (c1 =? 56) || (c1 =? 57) then Ok (units c1, true, r)
            else let '(v, r') := octal_escape s in Ok (units v, true, r')
          else if negb (is_line_terminator c1) then Ok (units c1, false, r)
          else Ok ([], false, r)
      end
  end.

(** lex_string, 303-413: the text, the flags RJS_TOKEN_FL_ESCAPE and
    RJS_TOKEN_FL_LEGACY_ESCAPE, the rest.  [fuel] bounds the characters read. *)
Fixpoint string_body (q : Z) (fuel : nat) (s : list Z) : lres (list Z * bool * bool * list Z) :=
  match fuel, s with
  | S f, c :: r =>
      if c =? q then Ok ([], false, false, r)
      else if negb (c =? 0x2028) && negb (c =? 0x2029) && is_line_terminator c then Bad
      else if c =? 92 then
        match string_escape r with
        | Ok (v, l, r') =>
            match string_body q f r' with
            | Ok (t, _, l', r'') => Ok (v ++ t, true, l || l', r'')
            | x => x
            end
        | Bad => Bad
        | Undef => Undef
        end
      else
        match string_body q f r with
        | Ok (t, e, l, r') => Ok (units c ++ t, e, l, r')
        | x => x
        end
  | _, _ => Bad
  end.

(** The check for unpaired surrogates, 415-439: true if the text is well formed *)
Fixpoint well_formed (t : list Z) : bool :=
  match t with
  | [] => true
  | c :: r =>
      if is_trailing c then false
      else if is_leading c then
        match r with
        | d :: r' => if is_trailing d then well_formed r' else false
        | [] => false
        end
      else well_formed r
  end.

Record string_token := StringToken {
  text : list Z;
  has_escape : bool;
  has_legacy : bool;
  unpaired : bool;
  after : list Z
}.

Definition lex_string (q : Z) (s : list Z) : lres string_token :=
  match string_body q (length s) s with
  | Ok (t, e, l, r) => Ok (StringToken t e l (negb (well_formed t)) r)
  | Bad => Bad
  | Undef => Undef
  end.

(** ** Templates *)

(** One escape in a template, after the backslash (1132-1217): what it appends
    to the cooked text ([None]: escape_error), what it appends to the raw text
    after the backslash, the rest *)
Definition template_escape (s : list Z) : lres (option (list Z) * list Z * list Z) :=
  match s with
  | [] => Bad
  | c :: r =>
      match simple_escape c with
      | Some v => Ok (Some (units v), units c, r)
      | None =>
          if c =? 120 then
            match hex_digits 2 r 0 with
            | EVal v w r' => Ok (Some (units v), units c ++ flat_map units w, r')
            | EBad w r' => Ok (None, units c ++ flat_map units w, r')
            | EUndef => Undef
            end
          else if c =? 117 then
            match unicode_escape true r with
            | EVal v w r' => Ok (Some (units v), units c ++ flat_map units w, r')
            | EBad w r' => Ok (None, units c ++ flat_map units w, r')
            | EUndef => Undef
            end
          else if c =? 48 then
            if negb (is_digit (peek r)) then Ok (Some (units 0), units c, r)
            else Ok (None, units c, r)
          else if is_digit c then Ok (None, units c, r)
          else if is_line_terminator c then Ok (Some [], units c, r)
          else Ok (Some (units c), units c, r)
      end
  end.

(** How a part of a template ends: at the closing backquote or before a
    substitution *)
Inductive stop := Close | Subst.

Definition oapp (a b : option (list Z)) : option (list Z) :=
  match a, b with Some x, Some y => Some (x ++ y) | _, _ => None end.

(** lex_template, 1110-1222: cooked text ([None]: escape_error), raw text, how it
    ends, the rest *)
Fixpoint template_body (fuel : nat) (s : list Z) : lres (option (list Z) * list Z * stop * list Z) :=
  match fuel, s with
  | S f, c :: r =>
      if c =? 96 then Ok (Some [], [], Close, r)
      else if (c =? 36) && (peek r =? 123) then Ok (Some [], [], Subst, tl r)
      else if c =? 92 then
        match template_escape r with
        | Ok (v, w, r') =>
            match template_body f r' with
            | Ok (t, raw, k, r'') => Ok (oapp v t, units c ++ w ++ raw, k, r'')
            | x => x
            end
        | Bad => Bad
        | Undef => Undef
        end
      else
        match template_body f r with
        | Ok (t, raw, k, r') => Ok (oapp (Some (units c)) t, units c ++ raw, k, r')
        | x => x
        end
  | _, _ => Bad
  end.

(** lex_template, 1230-1256: the raw text is taken from the cooked one if they
    have the same length. *)
Definition lex_template (s : list Z) : lres (option (list Z) * list Z * stop * list Z) :=
  match template_body (length s) s with
  | Ok (Some t, raw, k, r) =>
      Ok (Some t, if Nat.eqb (length raw) (length t) then t else raw, k, r)
  | x => x
  end.

(** ** Braces and templates *)

(** brace_level and template_brace_level of the lexer, rjs_lex.h:128-130 *)
Record braces := Braces { level : Z; templates : list Z }.

(** The case '}' of rjs_lex_get_token, 1378-1390: does it go on with a template? *)
Definition resumes (b : braces) : bool :=
  match templates b with t :: _ => t =? level b | [] => false end.

(** lex_template, 1104-1105 and 1236: the head pushes the level, the end pops it *)
Definition at_backquote (k : stop) (b : braces) : braces :=
  match k with
  | Subst => Braces (level b) (level b :: templates b)
  | Close => b
  end.
Definition at_open (b : braces) : braces := Braces (level b + 1) (templates b).
(** [k] is how the rest of the template ends, if the brace resumes one. *)
Definition at_close (k : stop) (b : braces) : braces :=
  if resumes b then
    match k with Subst => b | Close => Braces (level b) (tl (templates b)) end
  else Braces (level b - 1) (templates b).

(** What rjs_lex_get_token sees: a brace, a backquote that starts a template; [k]
    is how the part of a template that starts here ends. *)
Inductive brace_event := LBrace | RBrace (k : stop) | Backquote (k : stop).

(** The new state, and whether the event was a brace that resumed a template *)
Definition brace_step (b : braces) (e : brace_event) : braces * bool :=
  match e with
  | LBrace => (at_open b, false)
  | Backquote k => (at_backquote k b, false)
  | RBrace k => (at_close k b, resumes b)
  end.

(** ** Regular expressions *)

(** lex_regexp, 1027-1044: the characters of a class up to its ] *)
Fixpoint regexp_class (s : list Z) : option (list Z * list Z) :=
  match s with
  | [] => None
  | c :: r =>
      if is_line_terminator c then None
      else if c =? 93 then Some (units c, r)
      else match regexp_class r with
           | Some (t, r') => Some (units c ++ t, r')
           | None => None
           end
  end.

(** lex_regexp, 1006-1048: the body up to the / *)
Fixpoint regexp_body (fuel : nat) (s : list Z) : option (list Z * list Z) :=
  match fuel, s with
  | S f, c :: r =>
      if is_line_terminator c then None
      else if c =? 47 then Some ([], r)
      else if c =? 92 then
        match r with
        | d :: r' =>
            if is_line_terminator d then None
            else match regexp_body f r' with
                 | Some (t, r'') => Some (units 92 ++ units d ++ t, r'')
                 | None => None
                 end
        | [] => None
        end
      else if c =? 91 then
        match regexp_class r with
        | Some (k, r') =>
            match regexp_body f r' with
            | Some (t, r'') => Some (units c ++ k ++ t, r'')
            | None => None
            end
        | None => None
        end
      else match regexp_body f r with
           | Some (t, r') => Some (units c ++ t, r')
           | None => None
           end
  | _, _ => None
  end.

Section regexp.

Variable id_continue : Z -> bool.

(** lex_regexp, 1053-1062: the flags *)
Fixpoint regexp_flags (s : list Z) : list Z * list Z :=
  match s with
  | c :: r =>
      if id_continue c then let '(f, r') := regexp_flags r in (units c ++ f, r')
      else ([], s)
  | [] => ([], [])
  end.

(** lex_regexp, 995-1075: source, flags, rest.  [s] begins after the first /. *)
Definition lex_regexp (s : list Z) : option (list Z * list Z * list Z) :=
  match regexp_body (length s) s with
  | Some (t, r) => let '(f, r') := regexp_flags r in Some (t, f, r')
  | None => None
  end.

End regexp.
