(** Properties C125 and C126: white space, comments and line terminators between tokens. *)
From Coq Require Import List ZArith Bool Lia.
From Verif Require Import GapModel GapSpec GapProofs.
Import ListNotations.
Local Open Scope Z_scope.

(** *** C125: exactly the white space and the comments are skipped *)
(** every text is a gap and then a token, the end or a comment without an end ... *)
Theorem C125_every_text : forall t, exists g r,
  t = g ++ r /\ gap g /\ (token_start r \/ text_end r \/ open_comment r).
Proof. exact every_text. Qed.
Print Assumptions C125_every_text.
(** ... and in these cases the reading starts at the token, ends, or fails.  What is
    missing: U+0085 at the start of the token, which belongs to no token. *)
Theorem C125_token_partial : forall g c r ln, gap g -> token_start (c :: r) -> c <> 133 ->
  exists n, next_token (g ++ c :: r) ln = First c (Inp r n false) false.
Proof. intros. eexists. apply next_first; assumption. Qed.
Print Assumptions C125_token_partial.
Theorem C125_end : forall g t ln, gap g -> text_end t ->
  exists n, next_token (g ++ t) ln = End (Inp [] n false) false.
Proof. intros. eexists. apply next_end; assumption. Qed.
Print Assumptions C125_end.
Theorem C125_open_comment : forall g t ln, gap g -> open_comment t ->
  exists n, next_token (g ++ t) ln = End (Inp [] n false) true.
Proof. intros. eexists. apply next_open; assumption. Qed.
Print Assumptions C125_open_comment.
(** the first token: a first line that starts with #! is skipped, and only this one *)
Theorem C125_hashbang_partial : forall h c g r, hashbang_line h -> terminator c -> gap g ->
  (forall x u, r = x :: u -> token_start r -> x <> 133 ->
     first_token (h ++ c :: g ++ r) = First x (Inp u (2 + lines g) false) false) /\
  (text_end r -> first_token (h ++ c :: g ++ r) = End (Inp [] (2 + lines g) false) false).
Proof. exact first_hashbang. Qed.
Print Assumptions C125_hashbang_partial.
Theorem C125_no_hashbang : forall t, (forall u, t <> 35 :: 33 :: u) -> first_token t = next_token t 1.
Proof. exact first_other. Qed.
Print Assumptions C125_no_hashbang.
(** U+0085 is no white space of the language, but it is skipped *)
Theorem C125_white_space_refuted : exists c r ln,
  token_start (c :: r) /\ next_token (c :: r) ln <> First c (Inp r ln false) false.
Proof.
  exists 133, [97], 1. split; [|discriminate].
  split; [cbn; lia|]. split; [cbn; lia|discriminate].
Qed.
Print Assumptions C125_white_space_refuted.
(** /**/ /***/ // x LF a *)
Example C125_witness :
  gap [47; 42; 42; 47; 32; 47; 42; 42; 42; 47; 47; 47; 120; 10] /\ token_start [97; 47; 47] /\
  next_token ([47; 42; 42; 47; 32; 47; 42; 42; 42; 47; 47; 47; 120; 10] ++ [97; 47; 47]) 1
    = First 97 (Inp [47; 47] 2 false) false /\
  open_comment [47; 42; 47] /\ text_end [47; 47; 42] /\
  first_token [35; 33; 47; 10; 9; 97] = First 97 (Inp [] 2 false) false.
Proof.
  assert (B1 : body [42]).
  { intros a b E. do 4 (destruct a as [|? a]; cbn in E; [inversion E; subst; try discriminate; try reflexivity|];
      try (inversion E; subst; clear E; match goal with H : _ = a ++ _ |- _ => rename H into E end)).
    all: try discriminate. }
  repeat split; try reflexivity; try discriminate.
  - change (gap (47 :: 42 :: [] ++ 42 :: 47 :: [32; 47; 42; 42; 42; 47; 47; 47; 120; 10])).
    apply gap_multi; [apply body_nil|]. apply gap_white; [cbn; lia|].
    change (gap (47 :: 42 :: [42] ++ 42 :: 47 :: [47; 47; 120; 10])). apply gap_multi; [exact B1|].
    change (gap (47 :: 47 :: [120] ++ 10 :: [])). apply gap_single; [|cbn; lia|apply gap_nil].
    intros c [<-|[]]. cbn. lia.
  - cbn. lia.
  - cbn. lia.
  - exists [47]. split; [|reflexivity]. intros [|? [|? a]] b; discriminate.
  - right. exists [42]. split; [|reflexivity]. intros c [<-|[]]. cbn. lia.
Qed.

(** *** C126: a line terminator before a token is seen, wherever it is *)
Theorem C126_newline_before : forall g c r ln, gap g -> token_start (c :: r) -> c <> 133 ->
  (newline_before ln (next_token (g ++ c :: r) ln) = true <-> exists x, In x g /\ terminator x).
Proof.
  intros g c r ln G T N. rewrite (next_first g c r ln G T N). cbn [newline_before line].
  rewrite <- lines_pos, negb_true_iff, Z.eqb_neq. lia.
Qed.
Print Assumptions C126_newline_before.
Theorem C126_newline_before_end : forall g t ln, gap g -> text_end t ->
  (newline_before ln (next_token (g ++ t) ln) = true <-> exists x, In x g /\ terminator x).
Proof.
  intros g t ln G T. rewrite (next_end g t ln G T). cbn [newline_before line].
  rewrite <- lines_pos, negb_true_iff, Z.eqb_neq. lia.
Qed.
Print Assumptions C126_newline_before_end.
(** the line of a token is the number of line terminators before it *)
Theorem C126_line : forall g c r ln, gap g -> token_start (c :: r) -> c <> 133 ->
  next_token (g ++ c :: r) ln = First c (Inp r (ln + lines g) false) false.
Proof. exact next_first. Qed.
Print Assumptions C126_line.
(** a line terminator in a comment counts, and an escaped look ahead does not count twice *)
Example C126_witness :
  gap [47; 42; 10; 42; 47] /\ token_start [47; 10; 97] /\
  newline_before 7 (next_token ([47; 42; 10; 42; 47] ++ [47; 10; 97]) 7) = true /\
  newline_before 7 (next_token [32; 47; 10; 97] 7) = false /\
  next_token ([47; 42; 10; 42; 47] ++ [47; 10; 97]) 7 = First 47 (Inp [10; 97] 8 false) false.
Proof.
  repeat split; try reflexivity.
  - change (gap (47 :: 42 :: [10] ++ 42 :: 47 :: [])). apply gap_multi; [|apply gap_nil].
    intros [|? [|? [|? [|? a]]]] b E; inversion E; reflexivity.
  - cbn. lia.
  - cbn. lia.
Qed.
