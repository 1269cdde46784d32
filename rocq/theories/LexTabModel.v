(** * The tables of punctuators and reserved words

    What is modelled: the generator of the tables (entry_add, build_token and
    build_table, gen/lextab/lextab.c, 62-145, with the lists of
    gen/misc/punctuator.h and gen/misc/identifier.h), the search for reserved
    words in lex_identifier (src/lib/rjs_lex.c, 880-917) and lex_punctuator
    (930-993).

    Simplifications.
    - The index -1 is [None]; an index outside the table is [None] at the
      outermost level.
    - A token of the punctuator table is a constant whose name is made from the
      characters of the punctuator (print_punct_name, 163-182); here the
      punctuator itself stands for it.  An entry of the identifier table has the
      class (reserved, strict reserved, known) and the word.
    - The input is the list of code points still to be read. *)
Require Import String Ascii ZArith List Bool.
Import ListNotations.
Local Open Scope list_scope.
Local Open Scope nat_scope.

Section table.

Variable A : Type.

(** LEX_Entry, 40-47, and RJS_LexCharEntry, rjs_lex.c:28-34 *)
Record entry := Entry { chr : Z; next : option nat; child : option nat; result : option A }.

Fixpoint update (tab : list entry) (i : nat) (f : entry -> entry) : list entry :=
  match tab, i with
  | [], _ => []
  | e :: r, O => f e :: r
  | e :: r, S j => e :: update r j f
  end.

(** The search among the children, lextab.c:104-113, rjs_lex.c:895-902 and
    951-958; [None]: an index outside the table or an endless chain *)
Fixpoint find (tab : list entry) (fuel : nat) (id : option nat) (c : Z) : option (option nat) :=
  match id with
  | None => Some None
  | Some i =>
      match fuel with
      | O => None
      | S f =>
          match nth_error tab i with
          | None => None
          | Some e => if Z.eqb (chr e) c then Some (Some i) else find tab f (next e) c
          end
      end
  end.

(** build_token, lextab.c:90-133, from the entry [parent] on *)
Fixpoint insert (tab : list entry) (parent : nat) (w : list Z) (k : A) : option (list entry) :=
  match w with
  | [] =>
      match nth_error tab parent with
      | None => None
      | Some _ => Some (update tab parent (fun e => Entry (chr e) (next e) (child e) (Some k)))
      end
  | c :: w' =>
      match nth_error tab parent with
      | None => None
      | Some p =>
          match find tab (length tab) (child p) c with
          | None => None
          | Some (Some i) => insert tab i w' k
          | Some None =>
              let id := length tab in
              let tab' := update (tab ++ [Entry c (child p) None None]) parent
                            (fun e => Entry (chr e) (next e) (Some id) (result e)) in
              insert tab' id w' k
          end
      end
  end.

(** The root: entry_add(&tab, 'S'), lextab.c:283-284 *)
Definition root : list entry := [Entry 83%Z None None None].

(** build_table, 136-145 *)
Fixpoint build (tab : list entry) (l : list (list Z * A)) : option (list entry) :=
  match l with
  | [] => Some tab
  | (w, k) :: r =>
      match insert tab 0 w k with
      | Some tab' => build tab' r
      | None => None
      end
  end.

(** lex_identifier, rjs_lex.c:880-917: the flags found for a name.  The code reads
    a first character, so the empty name is outside the model. *)
Fixpoint lookup (tab : list entry) (id : nat) (w : list Z) : option (option A) :=
  match w with
  | [] => None
  | c :: w' =>
      match nth_error tab id with
      | None => None
      | Some e =>
          match find tab (length tab) (child e) c with
          | None => None
          | Some None => Some None
          | Some (Some i) =>
              match w' with
              | [] => match nth_error tab i with None => None | Some e' => Some (result e') end
              | _ => lookup tab i w'
              end
          end
      end
  end.

(** What lex_punctuator gives: a token and the rest of the input, an error, a
    write beyond uc_buf, or an index outside the table *)
Inductive presult := PToken (t : A) (rest : list Z) | PError | POverflow | PBroken.

(** The loop of lex_punctuator, 938-992: entry, last token, characters since *)
Fixpoint punct (tab : list entry) (id : nat) (last : option A) (buf : list Z) (s : list Z) : presult :=
  match nth_error tab id with
  | None => PBroken
  | Some e =>
      let '(last, buf) := match result e with Some t => (Some t, []) | None => (last, buf) end in
      match s with
      | [] => match last with Some t => PToken t (buf ++ []) | None => PError end
      | c :: s' =>
          if 8 <=? length buf then POverflow
          else
            match find tab (length tab) (child e) c with
            | None => PBroken
            | Some None => match last with Some t => PToken t ((buf ++ [c]) ++ s') | None => PError end
            | Some (Some i) => punct tab i last (buf ++ [c]) s'
            end
      end
  end.

End table.

Arguments Entry {A}. Arguments chr {A}. Arguments next {A}. Arguments child {A}. Arguments result {A}.
Arguments update {A}. Arguments find {A}. Arguments insert {A}. Arguments root {A}. Arguments build {A}.
Arguments lookup {A}. Arguments punct {A}.
Arguments PToken {A}. Arguments PError {A}. Arguments POverflow {A}. Arguments PBroken {A}.

(** ** The lists *)

Fixpoint codes (s : string) : list Z :=
  match s with
  | EmptyString => []
  | String c r => Z.of_N (N_of_ascii c) :: codes r
  end.

Local Open Scope string_scope.

(** gen/misc/punctuator.h *)
Definition punctuators : list (list Z) := map codes
  ["{"; "}"; "("; ")"; "["; "]"; "."; "..."; ";"; ","; "<"; ">"; "<="; ">="; "=="; "!="; "==="; "!==";
   "+"; "-"; "*"; "/"; "%"; "**"; "++"; "--"; "<<"; ">>"; ">>>"; "&"; "|"; "^"; "!"; "~"; "&&"; "||";
   "??"; "?"; "?."; ":"; "="; "+="; "-="; "*="; "/="; "%="; "**="; "<<="; ">>="; ">>>="; "&="; "|=";
   "^="; "&&="; "||="; "??="; "=>"].

(** gen/misc/identifier.h, with ENABLE_MODULE *)
Definition reserved_word : list (list Z) := map codes
  ["await"; "break"; "case"; "catch"; "class"; "const"; "continue"; "debugger"; "default"; "delete";
   "do"; "else"; "enum"; "export"; "extends"; "false"; "finally"; "for"; "function"; "if"; "import";
   "in"; "instanceof"; "new"; "null"; "return"; "super"; "switch"; "this"; "throw"; "true"; "try";
   "typeof"; "var"; "void"; "while"; "with"; "yield"].
Definition strict_reserved_word : list (list Z) := map codes
  ["implements"; "interface"; "package"; "private"; "protected"; "public"; "let"; "static"].
Definition identifier : list (list Z) := map codes
  ["as"; "async"; "from"; "get"; "meta"; "of"; "set"; "target"].

Local Close Scope string_scope.

Inductive word_class := Reserved | StrictReserved | Known.

(** main, lextab.c:286-289 *)
Definition identifier_table : option (list (entry (word_class * list Z))) :=
  build root (map (fun w => (w, (Reserved, w))) reserved_word ++
              map (fun w => (w, (StrictReserved, w))) strict_reserved_word ++
              map (fun w => (w, (Known, w))) identifier).
Definition punctuator_table : option (list (entry (list Z))) :=
  build root (map (fun w => (w, w)) punctuators).

(** The class of a name: lex_identifier, 880-917 *)
Definition word_flags (w : list Z) : option (option (word_class * list Z)) :=
  match identifier_table with Some tab => lookup tab 0 w | None => None end.

(** lex_punctuator, 930-993: the token is [None] after an error *)
Definition lex_punctuator (s : list Z) : presult (list Z) :=
  match punctuator_table with
  | None => PBroken
  | Some tab =>
      match punct tab 0 None [] s with
      | PToken t r =>
          if list_eq_dec Z.eq_dec t [63%Z; 46%Z] then
            match r with
            | c :: _ => if (Z.leb 48 c && Z.leb c 57)%bool then PToken [63%Z] (46%Z :: r) else PToken t r
            | [] => PToken t r
            end
          else PToken t r
      | x => x
      end
  end.
