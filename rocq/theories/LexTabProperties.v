(** * Properties of the tables of punctuators and reserved words *)
Require Import String ZArith List Bool.
From Verif Require Import LexTabModel LexTabSpec LexTabProofs LexTabMain.
Import ListNotations.
Local Open Scope list_scope.

(** ** C112: punctuators *)

(** The lexer takes the longest punctuator of the standard. *)
Theorem C112_longest : forall s t rest, lex_punctuator s = PToken t rest <-> longest s t rest.
Proof. exact punctuator_exact. Qed.
Print Assumptions C112_longest.

(** It fails only where the standard has no punctuator, never writes beyond its
    buffer and never leaves its table. *)
Theorem C112_total : forall s,
  (exists t rest, lex_punctuator s = PToken t rest) \/
  (lex_punctuator s = PError /\ forall t rest, ~ token_at s t rest).
Proof. exact punctuator_total. Qed.
Print Assumptions C112_total.

Example C112_witness :
  lex_punctuator (codes ">>>=x") = PToken (codes ">>>=") (codes "x") /\
  lex_punctuator (codes "..5") = PToken (codes ".") (codes ".5") /\
  lex_punctuator (codes "?.5:0") = PToken (codes "?") (codes ".5:0") /\
  lex_punctuator (codes "?.x") = PToken (codes "?.") (codes "x") /\
  lex_punctuator (codes "@") = PError.
Proof. vm_compute. repeat split. Qed.

(** ** C113: reserved words *)

(** Any list of words: the table that is built from it is searched safely and
    gives exactly the entry of the word. *)
Theorem C113_table : forall (A : Type) (l : list (list Z * A)), NoDup (map fst l) ->
  exists tab, build root l = Some tab /\
    forall w, w <> [] ->
      exists x, lookup tab 0 w = Some x /\ forall k, x = Some k <-> In (w, k) l.
Proof.
  intros A l ND. destruct (build_ok A l root (root_inv A)) as (tab & B & IV & T & _).
  exists tab. split; [exact B|]. intros w NE. exists (token_of A tab w).
  split; [exact (lookup_ok A tab IV w 0 [] NE eq_refl)|]. intro k.
  rewrite (T w k ND (fun u _ => root_token A u)), root_token.
  split; [intros [H|H]; [discriminate|exact H]|intro H; right; exact H].
Qed.
Print Assumptions C113_table.

(** The names marked as reserved are the reserved words of the standard. *)
Theorem C113_reserved : forall w, w <> [] ->
  exists x, word_flags w = Some x /\
    (forall c v, x = Some (c, v) -> v = w) /\
    ((exists v, x = Some (Reserved, v)) <-> In w standard_reserved) /\
    ((exists v, x = Some (StrictReserved, v)) <-> In w standard_strict).
Proof. exact words_exact. Qed.
Print Assumptions C113_reserved.

Example C113_witness :
  word_flags (codes "instanceof") = Some (Some (Reserved, codes "instanceof")) /\
  word_flags (codes "instance") = Some None /\
  word_flags (codes "inn") = Some None /\
  word_flags (codes "let") = Some (Some (StrictReserved, codes "let")) /\
  word_flags (codes "async") = Some (Some (Known, codes "async")).
Proof. vm_compute. repeat split. Qed.
