(** The character sets of ECMAScript patterns: CompileToCharSet 22.2.2.9,
    Canonicalize 22.2.2.7.3, WordCharacters 22.2.2.9.3 and CharacterSetMatcher
    22.2.2.7.1.  The flags, simple case folding, toUppercase and the property
    sets are those of the environment. *)
From Coq Require Import ZArith List Bool.
Import ListNotations.
From Verif Require Import RegModel RegSpec.
From Verif Require StrSpec.
Local Open Scope Z_scope.

(** Canonicalize: case folding with i and u; with i alone the upper case of a code
    unit, if it is one unit and does not come from outside of ASCII into it *)
Definition es_canon (E : env) (c : Z) : Z :=
  if fl_i E then
    if fl_u E then fold_case E c
    else match to_upper E c with
         | [u] => if (128 <=? c) && (u <? 128) then c else u
         | _ => c
         end
  else c.

Definition es_digit (c : Z) : Prop := 48 <= c <= 57.
Definition es_basic_word (c : Z) : Prop := es_digit c \/ 65 <= c <= 90 \/ 97 <= c <= 122 \/ c = 95.
(** WordCharacters: with i and u also what folds to a word character *)
Definition es_word (E : env) (c : Z) : Prop :=
  es_basic_word c \/ (fl_i E = true /\ fl_u E = true /\ es_basic_word (es_canon E c)).
Definition es_line_terminator (c : Z) : Prop := In c [0x0a; 0x0d; 0x2028; 0x2029].

(** a character: a code unit, a code point with u *)
Definition es_char (E : env) (c : Z) : Prop := 0 <= c <= (if fl_u E then 0x10ffff else 0xffff).

Definition es_set (E : env) (k : cset) (c : Z) : Prop :=
  match k with
  | CNormal d => c = d
  | Cs => StrSpec.es_space c
  | CnotS => ~ StrSpec.es_space c
  | Cd => es_digit c
  | CnotD => ~ es_digit c
  | Cw => es_word E c
  | CnotW => ~ es_word E c
  | Cp p v => prop_match E p v c = true
  | CnotP p v => prop_match E p v c = false
  end.
Definition es_item (E : env) (a : citem) (c : Z) : Prop :=
  match a with
  | CItem k => es_set E k c
  | CRange lo hi => lo <= c <= hi
  end.
(** CharacterSetMatcher: the set has a character with the same canonical form *)
Definition es_hits (E : env) (A : Z -> Prop) (c : Z) : Prop :=
  exists d, es_char E d /\ A d /\ es_canon E d = es_canon E c.
Definition es_member (E : env) (a : atom) (c : Z) : Prop :=
  match a with
  | AChar k => es_hits E (es_set E k) c
  | AAll => es_hits E (fun d => fl_s E = true \/ ~ es_line_terminator d) c
  | AClass neg items =>
      let hit := es_hits E (fun d => exists it, In it items /\ es_item E it d) c in
      if neg then ~ hit else hit
  | _ => False
  end.

(** the world of the standard *)
Definition es_world (E : env) (V : world) : Prop :=
  input V = (if fl_u E then code_points (str E) else str E) /\
  (forall a c, es_char E c -> (member V a c = true <-> es_member E a c)) /\
  (forall c, canon V c = es_canon E c) /\
  (forall c, wordchar V c = true <-> es_word E c) /\
  multiline V = fl_m E /\ ngroups V = group_num E /\ names V = group_names E.
