(** * Punctuators and reserved words of ECMA-262 (12.7.2 and 12.8) *)
Require Import String Ascii ZArith List Bool.
Import ListNotations.
Local Open Scope list_scope.

(** The source text of a string of ASCII characters *)
Fixpoint source (s : string) : list Z :=
  match s with
  | EmptyString => []
  | String c r => Z.of_N (N_of_ascii c) :: source r
  end.

Local Open Scope string_scope.

(** OtherPunctuator, DivPunctuator, RightBracePunctuator, OptionalChainingPunctuator *)
Definition standard_punctuators : list (list Z) := map source
  ["{"; "("; ")"; "["; "]"; "."; "..."; ";"; ","; "<"; ">"; "<="; ">="; "=="; "!="; "==="; "!==";
   "+"; "-"; "*"; "%"; "**"; "++"; "--"; "<<"; ">>"; ">>>"; "&"; "|"; "^"; "!"; "~"; "&&"; "||"; "??";
   "?"; ":"; "="; "+="; "-="; "*="; "%="; "**="; "<<="; ">>="; ">>>="; "&="; "|="; "^="; "&&="; "||=";
   "??="; "=>"; "/"; "/="; "}"; "?."].

(** ReservedWord *)
Definition standard_reserved : list (list Z) := map source
  ["await"; "break"; "case"; "catch"; "class"; "const"; "continue"; "debugger"; "default"; "delete";
   "do"; "else"; "enum"; "export"; "extends"; "false"; "finally"; "for"; "function"; "if"; "import";
   "in"; "instanceof"; "new"; "null"; "return"; "super"; "switch"; "this"; "throw"; "true"; "try";
   "typeof"; "var"; "void"; "while"; "with"; "yield"].
(** Reserved in strict mode code only *)
Definition standard_strict : list (list Z) := map source
  ["let"; "static"; "implements"; "interface"; "package"; "private"; "protected"; "public"].

Local Close Scope string_scope.

(** A token at the front of the input: ?. must not be followed by a digit. *)
Definition token_at (s t rest : list Z) : Prop :=
  In t standard_punctuators /\ s = t ++ rest /\
  (t = source "?." -> match rest with c :: _ => ~ (48 <= c <= 57)%Z | [] => True end).

(** The token read: the longest one *)
Definition longest (s t rest : list Z) : Prop :=
  token_at s t rest /\ forall t' rest', token_at s t' rest' -> (List.length t' <= List.length t)%nat.
