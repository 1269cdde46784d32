(** * Properties of string, template and regular expression literals *)
Require Import String Ascii ZArith List Bool Lia.
From Verif Require Import LexTextModel LexTextSpec LexTextString LexTextTemplate LexTextRegexp.
Import ListNotations.
Local Open Scope list_scope.
Local Open Scope Z_scope.

(** ASCII texts for the examples *)
Fixpoint ascii (s : string) : list Z :=
  match s with EmptyString => [] | String c r => Z.of_N (N_of_ascii c) :: ascii r end.

(** ** C109: string literals *)

(** The full property: every string is read as the standard says, with the right
    flags.  It fails for \u{} only (below). *)
Definition strings_standard : Prop :=
  forall q s t, quote q -> Forall point s ->
    (lex_string q s = Ok t <->
     string_literal false q s (text t) (has_escape t) (has_legacy t) (after t) /\
     (unpaired t = false <-> well_formed_text (text t))).

(** What the code does: strings of the standard, where \u{} also counts. *)
Theorem C109_string_actual : forall q s t, quote q -> Forall point s ->
  (lex_string q s = Ok t <->
   string_literal true q s (text t) (has_escape t) (has_legacy t) (after t) /\
   (unpaired t = false <-> well_formed_text (text t))).
Proof. exact string_actual. Qed.
Print Assumptions C109_string_actual.

(** Without \u{} in the input the code follows the standard. *)
Theorem C109_string_partial : forall q s t, quote q -> Forall point s -> ~ empty_braces s ->
  (lex_string q s = Ok t <->
   string_literal false q s (text t) (has_escape t) (has_legacy t) (after t) /\
   (unpaired t = false <-> well_formed_text (text t))).
Proof.
  intros q s t Q P NE. rewrite (string_actual q s t Q P). split; intros [H U]; (split; [|exact U]).
  - exact (literal_strict _ _ _ _ _ _ H NE).
  - exact (literal_lax _ _ _ _ _ _ H).
Qed.
Print Assumptions C109_string_partial.

Lemma no_empty_braces s x k r u : escape false s x k r -> s = 117 :: 123 :: 125 :: u -> False.
Proof.
  intros E Q. destruct E as [c v r I|c r N1 N2 N3 N4 N5|c r L|r N|a b y z r Ha Hb|a b c d v r X|w v r X L N|c r D|a r D N|a b r D O N|a b r D O|a b c r D O1 O2|c r D];
    try discriminate Q; try (injection Q as -> _; unfold line_terminator in *; lia); try congruence.
  - injection Q as -> _. repeat (destruct I as [I|I]; [discriminate I|]). destruct I.
  - injection Q as -> _ _. apply hexs_iff in X. destruct X as [X _]. inversion X. discriminate.
  - injection Q as Q. destruct w as [|a w]; [exact (N eq_refl eq_refl)|].
    injection Q as -> _. apply hexs_iff in X. destruct X as [X _]. inversion X. discriminate.
Qed.

Lemma no_empty_string q s v e l r u : string_literal false q s v e l r ->
  q <> 92 -> s = 92 :: 117 :: 123 :: 125 :: u -> False.
Proof.
  intros S NQ E. destruct S as [r|c s v e l r N1 N2 N3 N4 S|s s' x k v e l r X S].
  - injection E as E _. exact (NQ E).
  - injection E as -> _. exact (N2 eq_refl).
  - injection E as E. exact (no_empty_braces _ _ _ _ _ X E).
Qed.

(** \u{} is read as the character U+0000. *)
Theorem C109_empty_braces_refuted : ~ strings_standard.
Proof.
  intro H.
  assert (P : Forall point [92; 117; 123; 125; 34]) by (repeat (apply Forall_cons; [unfold point; lia|]); apply Forall_nil).
  assert (L : lex_string 34 [92; 117; 123; 125; 34] = Ok (StringToken [0] true false false [])) by reflexivity.
  apply (H 34) in L; [|left; reflexivity|exact P]. destruct L as [L _].
  refine (no_empty_string _ _ _ _ _ _ _ L _ eq_refl). discriminate.
Qed.
Print Assumptions C109_empty_braces_refuted.

Example C109_witness :
  lex_string 39 (ascii "\x41\u{1F600}\0\101\8'+1") =
  Ok (StringToken [65; 0xd83d; 0xde00; 0; 65; 56] true true false (ascii "+1")) /\
  lex_string 34 (ascii "\ud800""") = Ok (StringToken [0xd800] true false true []) /\
  lex_string 34 (ascii "\u{110000}""") = Bad.
Proof. vm_compute. repeat split. Qed.

(** ** C110: templates *)

Definition templates_standard : Prop :=
  forall s c raw k r,
    lex_template s = Ok (c, raw, k, r) <->
    template_part s c (close_of k) r /\ raw_text s (close_of k) r raw.

(** Cooked text, raw text and the end of every part of a template are those of
    the standard, if the input contains neither \u{} nor a \u{ escape with a
    digit after its value became too large. *)
Theorem C110_template_partial : forall s c raw k r, ~ empty_braces s -> ~ too_long s ->
  (lex_template s = Ok (c, raw, k, r) <->
   template_part s c (close_of k) r /\ raw_text s (close_of k) r raw).
Proof. exact template_exact. Qed.
Print Assumptions C110_template_partial.

(** The raw text is right without any condition. *)
Theorem C110_raw : forall s c raw k r,
  lex_template s = Ok (c, raw, k, r) -> raw_text s (close_of k) r raw.
Proof. intros s c raw k r H. rewrite lex_template_body in H. exact (body_raw _ _ _ _ _ _ H). Qed.
Print Assumptions C110_raw.

(** Undefined behaviour needs such an escape. *)
Theorem C110_undefined : forall s, lex_template s = Undef -> too_long s.
Proof. intros s H. rewrite lex_template_body in H. exact (template_undef _ _ H). Qed.
Print Assumptions C110_undefined.

(** \u{} is taken for U+0000, so that a tagged template sees a string where the
    standard says undefined, and an untagged one is no error. *)
Theorem C110_empty_braces_refuted : exists s r,
  lex_template s = Ok (Some [0], ascii "\u{}", Close, r) /\
  template_part s None true r.
Proof.
  exists (ascii "\u{}`"), []. split; [reflexivity|].
  apply (tp_not (ascii "u{}`") (ascii "}`") (Some [125]) true []).
  - apply ne_brace. cbn. apply is_hex_not. reflexivity.
  - apply (tp_char 125 [96] (Some []) true []); [discriminate|discriminate|intros [X _]; discriminate X|].
    exact (tp_end true []).
Qed.
Print Assumptions C110_empty_braces_refuted.

(** Digits after a value that is too large: undefined behaviour. *)
Theorem C110_undefined_refuted : exists s r,
  lex_template s = Undef /\ template_part s None true r.
Proof.
  exists (ascii "\u{1100000}`"), []. split; [reflexivity|].
  apply (tp_not (ascii "u{1100000}`") (ascii "}`") (Some [125]) true []).
  - apply (ne_big (ascii "1100000") 0x1100000); [|lia|cbn; apply is_hex_not; reflexivity].
    apply hexs_iff. split; [repeat constructor|reflexivity].
  - apply (tp_char 125 [96] (Some []) true []); [discriminate|discriminate|intros [X _]; discriminate X|].
    exact (tp_end true []).
Qed.
Print Assumptions C110_undefined_refuted.

Theorem C110_property_refuted : ~ templates_standard.
Proof.
  intro H. destruct C110_undefined_refuted as (s & r & U & T).
  destruct C110_empty_braces_refuted as (s' & r' & L & T').
  pose proof (proj1 (H _ _ _ _ _) L) as [T1 _]. cbn [close_of] in T1.
  assert (R : raw_text s' true r' (ascii "\u{}")) by exact (C110_raw _ _ _ _ _ L).
  pose proof (proj2 (H s' None (ascii "\u{}") Close r') (conj T' R)) as L'. rewrite L in L'. discriminate.
Qed.
Print Assumptions C110_property_refuted.

Example C110_witness :
  lex_template (ascii "a\n$b${x") = Ok (Some [97; 10; 36; 98], ascii "a\n$b", Subst, ascii "x") /\
  lex_template (ascii "\x4`") = Ok (None, ascii "\x4", Close, []) /\
  lex_template (ascii "\u{41}\01`") = Ok (None, ascii "\u{41}\01", Close, []) /\
  ~ empty_braces (ascii "\x4`") /\ ~ too_long (ascii "\x4`").
Proof.
  repeat split; try reflexivity.
  - intros (a & b & H). assert (I : In 117 (ascii "\x4`")) by (rewrite H; apply in_or_app; right; right; left; reflexivity).
    repeat (destruct I as [I|I]; [discriminate I|]). destruct I.
  - intros (a & w & v & c & b & H & _).
    assert (I : In 117 (ascii "\x4`")) by (rewrite H; apply in_or_app; right; right; left; reflexivity).
    repeat (destruct I as [I|I]; [discriminate I|]). destruct I.
Qed.

(** ** C111: regular expressions *)

Definition regexps_standard : Prop :=
  forall part s b f r, lex_regexp part s = Some (b, f, r) <-> standard_regexp part s b f r.

(** Without \] in the input the extent of the literal, its source and its flags
    are those of the standard. *)
Theorem C111_regexp_partial : forall part s b f r, ~ class_escape s ->
  (lex_regexp part s = Some (b, f, r) <-> standard_regexp part s b f r).
Proof. exact regexp_exact. Qed.
Print Assumptions C111_regexp_partial.

(** Any literal of the standard in which no class contains \] is read. *)
Theorem C111_complete : forall part s b f r,
  regexp_literal (fun c => c <> 93) part s b f r -> lex_regexp part s = Some (b, f, r).
Proof. exact regexp_complete. Qed.
Print Assumptions C111_complete.

(** Inside a class a backslash is not an escape: /[\]/]/ ends too early. *)
Theorem C111_class_refuted : exists part s,
  lex_regexp part s = Some (ascii "[\]", [], ascii "]/") /\
  standard_regexp part s (ascii "[\]/]") [] [] /\ ~ regexps_standard.
Proof.
  exists (fun _ => false), (ascii "[\]/]/").
  assert (L : lex_regexp (fun _ => false) (ascii "[\]/]/") = Some (ascii "[\]", [], ascii "]/")) by reflexivity.
  assert (S : standard_regexp (fun _ => false) (ascii "[\]/]/") (ascii "[\]/]") [] []).
  { assert (NL : forall c, 0 < c < 128 -> c <> 10 -> c <> 13 -> ~ line_terminator c) by (unfold line_terminator; lia).
    exists (ascii "[\]/]"), []. split; [reflexivity|]. split; [|split; [reflexivity|split; [reflexivity|split; [apply Forall_nil|exact Logic.I]]]].
    apply (bc_class _ (ascii "\]/]/") (ascii "/")).
    - apply cc_escape; [exact Logic.I|apply NL; [split; reflexivity|discriminate|discriminate]|]. apply cc_char; [discriminate|discriminate|apply NL; [split; reflexivity|discriminate|discriminate]|].
      apply cc_end.
    - apply bc_end. }
  split; [exact L|]. split; [exact S|]. intro H. apply H in S. rewrite L in S. discriminate.
Qed.
Print Assumptions C111_class_refuted.

Example C111_witness :
  lex_regexp (fun c => Z.eqb c 103) (ascii "a\/[/\\]b/g.x") = Some (ascii "a\/[/\\]b", ascii "g", ascii ".x") /\
  ~ class_escape (ascii "a/g").
Proof.
  split; [reflexivity|]. intros (a & b & H).
  assert (I : In 93 (ascii "a/g")) by (rewrite H; apply in_or_app; right; right; left; reflexivity).
  repeat (destruct I as [I|I]; [discriminate I|]). destruct I.
Qed.

(** ** C114: templates inside templates *)

(** A closing brace continues a template exactly if the innermost thing that is
    open is its substitution. *)
Theorem C114_braces : forall es, run_braces (Braces 0 []) es = run_nest [] es.
Proof. exact braces_exact. Qed.
Print Assumptions C114_braces.

Example C114_witness :
  run_braces (Braces 0 []) [ELeft; EBackquote false; ELeft; EBackquote false; ERight true; ERight true; ERight true; ERight true] =
  [false; false; false; false; true; false; true; false].
Proof. reflexivity. Qed.
