(** * What string, template and regular expression literals mean

    The input is the source text with its line ends normalised (CR LF and CR are
    LF), as a list of code points.

    From ECMA-262: 12.9.4 String Literals, 12.9.5 Regular Expression Literals,
    12.9.6 Template Literal Lexical Components. *)
Require Import ZArith List Bool.
Import ListNotations.
Local Open Scope Z_scope.

(** UTF16EncodeCodePoint *)
Definition encode (cp : Z) : list Z :=
  if cp <=? 0xffff then [cp]
  else [(cp - 0x10000) / 0x400 + 0xd800; (cp - 0x10000) mod 0x400 + 0xdc00].

Definition line_terminator (c : Z) : Prop := c = 0x0a \/ c = 0x0d \/ c = 0x2028 \/ c = 0x2029.
Definition digit (c : Z) : Prop := 48 <= c <= 57.
Definition octal (c : Z) : Prop := 48 <= c <= 55.
(** A hexadecimal digit and its value *)
Definition hex (c v : Z) : Prop :=
  (48 <= c <= 57 /\ v = c - 48) \/ (65 <= c <= 70 /\ v = c - 55) \/ (97 <= c <= 102 /\ v = c - 87).
(** Hexadecimal digits and their MV *)
Inductive hexs : list Z -> Z -> Prop :=
| hexs_nil : hexs [] 0
| hexs_snoc w v c d : hexs w v -> hex c d -> hexs (w ++ [c]) (16 * v + d).

(** [lookahead]: the next character, if there is one, is not in P *)
Definition next_not (P : Z -> Prop) (s : list Z) : Prop :=
  match s with [] => True | c :: _ => ~ P c end.
Definition is_hex (c : Z) : Prop := exists v, hex c v.

(** Table 37: single character escapes *)
Definition single : list (Z * Z) :=
  [(98, 8); (116, 9); (110, 10); (118, 11); (102, 12); (114, 13); (34, 34); (39, 39); (92, 92)].

(** An escape after its backslash: its text, its value, whether it is one of the
    legacy escapes of B.1 (LegacyOctalEscapeSequence,
    NonOctalDecimalEscapeSequence), what follows.  With [lax] the braces of \u{}
    may be empty; the standard demands a digit. *)
Inductive escape (lax : bool) : list Z -> list Z -> bool -> list Z -> Prop :=
| esc_single c v r : In (c, v) single -> escape lax (c :: r) [v] false r
| esc_other c r :
    ~ In c (map fst single) -> ~ digit c -> c <> 120 -> c <> 117 -> ~ line_terminator c ->
    escape lax (c :: r) (encode c) false r
| esc_line c r : line_terminator c -> escape lax (c :: r) [] false r
| esc_nul r : next_not digit r -> escape lax (48 :: r) [0] false r
| esc_hex a b x y r : hex a x -> hex b y -> escape lax (120 :: a :: b :: r) [16 * x + y] false r
| esc_four a b c d v r :
    hexs [a; b; c; d] v -> escape lax (117 :: a :: b :: c :: d :: r) [v] false r
| esc_brace w v r :
    hexs w v -> v <= 0x10ffff -> (lax = false -> w <> []) ->
    escape lax (117 :: 123 :: w ++ 125 :: r) (encode v) false r
| leg_zero c r : c = 56 \/ c = 57 -> escape lax (48 :: c :: r) [0] true (c :: r)
| leg_one a r : 49 <= a <= 55 -> next_not octal r -> escape lax (a :: r) [a - 48] true r
| leg_two_low a b r :
    48 <= a <= 51 -> octal b -> next_not octal r ->
    escape lax (a :: b :: r) [8 * (a - 48) + (b - 48)] true r
| leg_two_high a b r :
    52 <= a <= 55 -> octal b -> escape lax (a :: b :: r) [8 * (a - 48) + (b - 48)] true r
| leg_three a b c r :
    48 <= a <= 51 -> octal b -> octal c ->
    escape lax (a :: b :: c :: r) [64 * (a - 48) + 8 * (b - 48) + (c - 48)] true r
| leg_digit c r : c = 56 \/ c = 57 -> escape lax (c :: r) [c] true r.

(** A string after its opening quote q: input, SV, whether there is an escape
    or line continuation, whether there is a legacy escape, what follows *)
Inductive string_literal (lax : bool) (q : Z) : list Z -> list Z -> bool -> bool -> list Z -> Prop :=
| str_end r : string_literal lax q (q :: r) [] false false r
| str_char c s v e l r :
    c <> q -> c <> 92 -> c <> 0x0a -> c <> 0x0d ->
    string_literal lax q s v e l r -> string_literal lax q (c :: s) (encode c ++ v) e l r
| str_escape s s' x k v e l r :
    escape lax s x k s' -> string_literal lax q s' v e l r ->
    string_literal lax q (92 :: s) (x ++ v) true (k || l) r.

(** A well formed text: the code units of code points that are not surrogates *)
Definition scalar (c : Z) : Prop := 0 <= c < 0xd800 \/ 0xdfff < c <= 0x10ffff.
Definition well_formed_text (t : list Z) : Prop :=
  exists cs, Forall scalar cs /\ t = flat_map encode cs.

(** NotEscapeSequence after the backslash: input, what follows *)
Inductive not_escape : list Z -> list Z -> Prop :=
| ne_zero d r : digit d -> not_escape (48 :: d :: r) r
| ne_digit d r : 49 <= d <= 57 -> not_escape (d :: r) r
| ne_hex0 r : next_not is_hex r -> not_escape (120 :: r) r
| ne_hex1 a r : is_hex a -> next_not is_hex r -> not_escape (120 :: a :: r) r
| ne_four w v r :
    (length w < 4)%nat -> hexs w v -> next_not is_hex r ->
    (w = [] -> next_not (fun c => c = 123) r) ->
    not_escape (117 :: w ++ r) r
| ne_brace r : next_not is_hex r -> not_escape (117 :: 123 :: r) r
| ne_big w v r :
    hexs w v -> 0x10ffff < v -> next_not is_hex r -> not_escape (117 :: 123 :: w ++ r) r
| ne_open w v r :
    hexs w v -> w <> [] -> v <= 0x10ffff -> next_not is_hex r -> next_not (fun c => c = 125) r ->
    not_escape (117 :: 123 :: w ++ r) r.

(** The end of a part of a template; [true]: the backquote, [false]: ${ *)
Definition closing (k : bool) : list Z := if k then [96] else [36; 123].

Definition both (a b : option (list Z)) : option (list Z) :=
  match a, b with Some x, Some y => Some (x ++ y) | _, _ => None end.

(** A part of a template after ` or }: input, TV, end, what follows *)
Inductive template_part : list Z -> option (list Z) -> bool -> list Z -> Prop :=
| tp_end k r : template_part (closing k ++ r) (Some []) k r
| tp_char c s v k r :
    c <> 96 -> c <> 92 -> ~ (c = 36 /\ exists s', s = 123 :: s') ->
    template_part s v k r -> template_part (c :: s) (both (Some (encode c)) v) k r
| tp_escape s s' x v k r :
    escape false s x false s' -> template_part s' v k r ->
    template_part (92 :: s) (both (Some x) v) k r
| tp_not s s' v k r :
    not_escape s s' -> template_part s' v k r -> template_part (92 :: s) None k r.

(** The TRV of a part: its source, as UTF-16 *)
Definition raw_text (s : list Z) (k : bool) (rest raw : list Z) : Prop :=
  exists src, s = src ++ closing k ++ rest /\ raw = flat_map encode src.

(** ** Regular expressions *)

(** RegularExpressionClassChars ]: input, what follows.  The characters that may
    follow a backslash are those in P, not line terminators; the standard has no
    other restriction. *)
Inductive class_chars (P : Z -> Prop) : list Z -> list Z -> Prop :=
| cc_end r : class_chars P (93 :: r) r
| cc_char c s r :
    c <> 93 -> c <> 92 -> ~ line_terminator c -> class_chars P s r -> class_chars P (c :: s) r
| cc_escape c s r :
    P c -> ~ line_terminator c -> class_chars P s r -> class_chars P (92 :: c :: s) r.

(** RegularExpressionBody / *)
Inductive body_chars (P : Z -> Prop) : list Z -> list Z -> Prop :=
| bc_end r : body_chars P (47 :: r) r
| bc_char c s r :
    c <> 47 -> c <> 92 -> c <> 91 -> ~ line_terminator c -> body_chars P s r ->
    body_chars P (c :: s) r
| bc_escape c s r : ~ line_terminator c -> body_chars P s r -> body_chars P (92 :: c :: s) r
| bc_class s s' r : class_chars P s s' -> body_chars P s' r -> body_chars P (91 :: s) r.

(** A regular expression after its first /: source, flags (all the
    IdentifierPartChars that follow), what follows *)
Definition regexp_literal (P : Z -> Prop) (part : Z -> bool) (s body flags rest : list Z) : Prop :=
  exists src fl,
    s = src ++ 47 :: fl ++ rest /\ body_chars P s (fl ++ rest) /\
    body = flat_map encode src /\ flags = flat_map encode fl /\
    Forall (fun c => part c = true) fl /\
    match rest with [] => True | c :: _ => part c = false end.
Definition standard_regexp := regexp_literal (fun _ => True).

(** ** Braces *)

(** What is still open, innermost first: a brace or a substitution ${ *)
Inductive opener := OBrace | OSubst.

(** A brace closes the innermost opener; it resumes a template if that is ${.
    [k] tells whether the part of a template that starts with an event ends
    with the closing backquote. *)
Inductive lex_event := ELeft | ERight (k : bool) | EBackquote (k : bool).
Definition nest (o : list opener) (e : lex_event) : list opener * bool :=
  match e, o with
  | ELeft, _ => (OBrace :: o, false)
  | EBackquote true, _ => (o, false)
  | EBackquote false, _ => (OSubst :: o, false)
  | ERight _, OBrace :: o' => (o', false)
  | ERight true, OSubst :: o' => (o', true)
  | ERight false, OSubst :: o' => (o, true)
  | ERight _, [] => ([], false)
  end.
