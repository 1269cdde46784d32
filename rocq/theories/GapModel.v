(** Model of what the lexer does between tokens: white space, comments, the line
    count and the first line of a program that starts with #!.

    Source: /repo/src/lib/rjs_lex.c lines 122-168 and 1286-1346 (rjs_lex_get_token up
    to the first character of the token), rjs_input.c lines 216-289 (the line count
    and the flag RJS_INPUT_FL_NEW_LINE), rjs_uchar_icu_opt.c lines 34-38 and
    include/rjs_uchar.h lines 157-161.

    Simplifications.  The text is a list of code points in which the input has
    already joined surrogates and turned CR LF and CR to LF (C61, C62); columns and
    positions are left out; the line is unbounded (in the code an int).  The
    property White_Space of the ICU library is given by its list of characters
    (Unicode 15).  Reading has fuel; running out of it is an outcome of its own. *)
From Coq Require Import List ZArith Bool.
Import ListNotations.
Local Open Scope Z_scope.

(** rjs_uchar_is_line_terminator, rjs_uchar.h:157-161 *)
Definition is_lt (c : Z) : bool := (c =? 10) || (c =? 13) || (c =? 8232) || (c =? 8233).
(** u_isUWhiteSpace *)
Definition icu_space (c : Z) : bool :=
  ((9 <=? c) && (c <=? 13)) || (c =? 32) || (c =? 133) || (c =? 160) || (c =? 5760)
  || ((8192 <=? c) && (c <=? 8202)) || (c =? 8232) || (c =? 8233) || (c =? 8239) || (c =? 8287) || (c =? 12288).
(** rjs_uchar_is_white_space, rjs_uchar_icu_opt.c:34-38 *)
Definition is_space (c : Z) : bool := icu_space c || (c =? 65279).

(** the input: characters not read yet, line, RJS_INPUT_FL_NEW_LINE *)
Record input := Inp { rest : list Z; line : Z; nl : bool }.
(** rjs_input_get_uc, rjs_input.c:216-258: None is RJS_INPUT_END *)
Definition get (i : input) : option Z * input :=
  let ln := if nl i then line i + 1 else line i in
  match rest i with
  | [] => (None, Inp [] ln false)
  | c :: r => (Some c, Inp r ln (is_lt c))
  end.
(** rjs_input_unget_uc, lines 267-297 *)
Definition unget (c : option Z) (i : input) : input :=
  match c with None => i | Some c => Inp (c :: rest i) (line i) false end.

(** lex_single_line_comment, rjs_lex.c:122-137 *)
Fixpoint single_comment (fuel : nat) (i : input) : option input :=
  match fuel with
  | O => None
  | S fuel =>
      let (c, i) := get i in
      match c with
      | None => Some i
      | Some c => if is_lt c then Some i else single_comment fuel i
      end
  end.
(** lex_multi_line_comment, lines 139-168: with the error of a missing end *)
Fixpoint multi_comment (fuel : nat) (i : input) : option (bool * input) :=
  match fuel with
  | O => None
  | S fuel =>
      let (c, i) := get i in
      match c with
      | None => Some (true, i)
      | Some c =>
          if c =? 42 then
            let (c1, i) := get i in
            match c1 with
            | Some c1 => if c1 =? 47 then Some (false, i) else multi_comment fuel (unget (Some c1) i)
            | None => multi_comment fuel (unget None i)
            end
          else multi_comment fuel i
      end
  end.

(** [First c i e]: the token starts with [c], [i] is what follows; [End i e]: the
    token is the end of the text; [e]: an error was reported *)
Inductive start := First (c : Z) (i : input) (e : bool) | End (i : input) (e : bool) | Fuel.
(** the loop at lines 1311-1338 *)
Fixpoint skip (fuel : nat) (i : input) (e : bool) : start :=
  match fuel with
  | O => Fuel
  | S fuel =>
      let (c, i) := get i in
      match c with
      | None => End i e
      | Some c =>
          if c =? 47 then
            let (c1, i) := get i in
            match c1 with
            | Some c1 =>
                if c1 =? 47 then
                  match single_comment (S fuel) i with Some i => skip fuel i e | None => Fuel end
                else if c1 =? 42 then
                  match multi_comment (S fuel) i with Some (e', i) => skip fuel i (e || e') | None => Fuel end
                else First c (unget (Some c1) i) e
            | None => First c (unget None i) e
            end
          else if is_space c then skip fuel i e
          else First c i e
      end
  end.
(** the first line, lines 1286-1308 *)
Fixpoint hashbang_rest (fuel : nat) (i : input) : option input :=
  match fuel with
  | O => None
  | S fuel =>
      let (c, i) := get i in
      match c with
      | None => Some i
      | Some c => if is_lt c then Some i else hashbang_rest fuel i
      end
  end.
Definition hashbang (fuel : nat) (i : input) : option input :=
  let (c, i) := get i in
  match c with
  | Some c' =>
      if c' =? 35 then
        let (c1, i) := get i in
        match c1 with
        | Some c1' => if c1' =? 33 then hashbang_rest fuel i else Some (unget c (unget c1 i))
        | None => Some (unget c (unget c1 i))
        end
      else Some (unget c i)
  | None => Some (unget c i)
  end.
Definition fuel_for (t : list Z) : nat := S (S (length t)).
(** the first token and every other token *)
Definition first_token (t : list Z) : start :=
  match hashbang (fuel_for t) (Inp t 1 false) with
  | Some i => skip (fuel_for t) i false
  | None => Fuel
  end.
Definition next_token (t : list Z) (ln : Z) : start := skip (fuel_for t) (Inp t ln false) false.
(** auto_semicolon and the other places of rjs_parser.c that ask for a line
    terminator before a token (lines 1742-1783, 2727-2733, 4104, 4636, ...) compare
    the line where the token starts with the one where the last token ended. *)
Definition newline_before (last_line : Z) (s : start) : bool :=
  match s with First _ i _ => negb (line i =? last_line) | End i _ => negb (line i =? last_line) | Fuel => false end.
