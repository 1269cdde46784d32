(** * Proofs about regular expression literals and braces *)
Require Import ZArith List Bool Lia.
From Verif Require Import LexTextModel LexTextSpec LexTextString LexTextTemplate.
Import ListNotations.
Local Open Scope Z_scope.

(** ** Classes *)
Definition class_escape (s : list Z) : Prop := exists a b, s = a ++ [92; 93] ++ b.

Lemma class_escape_app a s : class_escape s -> class_escape (a ++ s).
Proof. intros (x & b & ->). exists (a ++ x), b. rewrite app_assoc. reflexivity. Qed.

Lemma regexp_class_text s t r : regexp_class s = Some (t, r) ->
  exists u, s = u ++ r /\ t = flat_map encode u /\ u <> [].
Proof.
  revert t r. induction s as [|c s IH]; intros t r H; [discriminate|]. cbn [regexp_class] in H.
  destruct (is_line_terminator c); [discriminate|]. destruct (c =? 93).
  - injection H as <- <-. exists [c]. split; [reflexivity|]. split; [|discriminate].
    cbn. rewrite app_nil_r, units_encode. reflexivity.
  - destruct (regexp_class s) as [[t' r']|]; [|discriminate]. injection H as <- <-.
    destruct (IH _ _ eq_refl) as (u & -> & -> & _). exists (c :: u). split; [reflexivity|].
    split; [|discriminate]. cbn [flat_map]. rewrite units_encode. reflexivity.
Qed.

Lemma class_sound (P : Z -> Prop) : (forall c, c <> 93 -> P c) -> forall n s t r, (length s <= n)%nat ->
  ~ class_escape s -> regexp_class s = Some (t, r) -> class_chars P s r.
Proof.
  intro PP. induction n as [|n IH]; intros s t r L NC H; (destruct s as [|c s]; [discriminate|]); [cbn in L; lia|].
  cbn [regexp_class] in H. destruct (is_line_terminator c) eqn:LT; [discriminate|]. apply line_not in LT.
  destruct (Z.eqb_spec c 93) as [->|N]; [injection H as <- <-; constructor|].
  destruct (regexp_class s) as [[t' r']|] eqn:K; [|discriminate]. injection H as <- <-.
  assert (NC' : ~ class_escape s) by (intro X; apply NC; exact (class_escape_app [c] s X)).
  destruct (Z.eq_dec c 92) as [->|N2].
  - destruct s as [|d s]; [discriminate|]. cbn [regexp_class] in K.
    destruct (is_line_terminator d) eqn:LD; [discriminate|]. apply line_not in LD.
    destruct (Z.eqb_spec d 93) as [->|N3].
    + exfalso. apply NC. exists [], s. reflexivity.
    + destruct (regexp_class s) as [[t2 r2]|] eqn:K2; [|discriminate]. injection K as <- <-.
      apply cc_escape; [exact (PP d N3)|exact LD|]. apply (IH s t2); [cbn in L; lia| |exact K2].
      intro X; apply NC'; exact (class_escape_app [d] s X).
  - apply cc_char; try assumption. apply (IH s t'); [cbn in L; lia|exact NC'|exact K].
Qed.

Lemma class_complete s r : class_chars (fun c => c <> 93) s r -> exists t, regexp_class s = Some (t, r).
Proof.
  induction 1 as [r|c s r N1 N2 LT H [t IH]|c s r N LT H [t IH]].
  - eexists. reflexivity.
  - cbn [regexp_class]. apply line_not in LT. rewrite LT. destruct (Z.eqb_spec c 93); [contradiction|].
    rewrite IH. eexists. reflexivity.
  - cbn [regexp_class]. change (is_line_terminator 92) with false. cbn [Z.eqb Pos.eqb].
    apply line_not in LT. rewrite LT. destruct (Z.eqb_spec c 93); [contradiction|].
    rewrite IH. eexists. reflexivity.
Qed.

(** ** Bodies *)
Lemma regexp_body_text : forall f s t r, regexp_body f s = Some (t, r) ->
  exists u, s = u ++ 47 :: r /\ t = flat_map encode u.
Proof.
  induction f as [|f IH]; intros s t r H; [discriminate|]. cbn [regexp_body] in H.
  destruct s as [|c s]; [discriminate|]. destruct (is_line_terminator c); [discriminate|].
  destruct (Z.eqb_spec c 47) as [->|N]; [injection H as <- <-; exists []; split; reflexivity|].
  destruct (Z.eqb_spec c 92) as [->|N2].
  - destruct s as [|d s]; [discriminate|]. destruct (is_line_terminator d); [discriminate|].
    destruct (regexp_body f s) as [[t' r']|] eqn:B; [|discriminate]. injection H as <- <-.
    destruct (IH _ _ _ B) as (u & -> & ->). exists (92 :: d :: u). split; [reflexivity|].
    cbn [flat_map]. rewrite units_encode. reflexivity.
  - destruct (Z.eqb_spec c 91) as [->|N3].
    + destruct (regexp_class s) as [[k r']|] eqn:K; [|discriminate].
      destruct (regexp_body f r') as [[t' r'']|] eqn:B; [|discriminate]. injection H as <- <-.
      destruct (IH _ _ _ B) as (u & -> & ->). destruct (regexp_class_text _ _ _ K) as (x & -> & -> & _).
      exists (91 :: x ++ u). split; [cbn; rewrite <- app_assoc; reflexivity|].
      cbn [flat_map]. rewrite flat_map_app. reflexivity.
    + destruct (regexp_body f s) as [[t' r']|] eqn:B; [|discriminate]. injection H as <- <-.
      destruct (IH _ _ _ B) as (u & -> & ->). exists (c :: u). split; [reflexivity|].
      cbn [flat_map]. rewrite units_encode. reflexivity.
Qed.

Lemma rbody_sound (P : Z -> Prop) : (forall c, c <> 93 -> P c) -> forall f s t r,
  ~ class_escape s -> regexp_body f s = Some (t, r) -> body_chars P s r.
Proof.
  intro PP. induction f as [|f IH]; intros s t r NC H; [discriminate|]. cbn [regexp_body] in H.
  destruct s as [|c s]; [discriminate|]. destruct (is_line_terminator c) eqn:LT; [discriminate|]. apply line_not in LT.
  assert (NC' : ~ class_escape s) by (intro X; apply NC; exact (class_escape_app [c] s X)).
  destruct (Z.eqb_spec c 47) as [->|N]; [injection H as <- <-; constructor|].
  destruct (Z.eqb_spec c 92) as [->|N2].
  - destruct s as [|d s]; [discriminate|]. destruct (is_line_terminator d) eqn:LD; [discriminate|]. apply line_not in LD.
    destruct (regexp_body f s) as [[t' r']|] eqn:B; [|discriminate]. injection H as <- <-.
    apply bc_escape; [exact LD|]. apply (IH s t'); [|exact B]. intro X; apply NC'; exact (class_escape_app [d] s X).
  - destruct (Z.eqb_spec c 91) as [->|N3].
    + destruct (regexp_class s) as [[k r']|] eqn:K; [|discriminate].
      destruct (regexp_body f r') as [[t' r'']|] eqn:B; [|discriminate]. injection H as <- <-.
      apply (bc_class P s r'); [apply (class_sound P PP (length s) s k); [lia|exact NC'|exact K]|].
      apply (IH r' t'); [|exact B]. destruct (regexp_class_text _ _ _ K) as (u & -> & _).
      intro X; apply NC'; exact (class_escape_app u _ X).
    + destruct (regexp_body f s) as [[t' r']|] eqn:B; [|discriminate]. injection H as <- <-.
      apply bc_char; try assumption. apply (IH s t'); assumption.
Qed.

Lemma class_shorter P s r : class_chars P s r -> (length r < length s)%nat.
Proof. induction 1; cbn [length]; lia. Qed.

Lemma rbody_complete s r : body_chars (fun c => c <> 93) s r ->
  forall f, (length s <= f)%nat -> exists t, regexp_body f s = Some (t, r).
Proof.
  induction 1 as [r|c s r N1 N2 N3 LT H IH|c s r LT H IH|s s' r K H IH]; intros f F;
    (destruct f as [|f]; [cbn in F; lia|]); cbn [length] in F; cbn [regexp_body].
  - eexists. reflexivity.
  - apply line_not in LT. rewrite LT. destruct (Z.eqb_spec c 47); [contradiction|].
    destruct (Z.eqb_spec c 92); [contradiction|]. destruct (Z.eqb_spec c 91); [contradiction|].
    destruct (IH f) as [t ->]; [lia|]. eexists. reflexivity.
  - change (is_line_terminator 92) with false. cbn [Z.eqb Pos.eqb]. apply line_not in LT. rewrite LT.
    destruct (IH f) as [t ->]; [lia|]. eexists. reflexivity.
  - change (is_line_terminator 91) with false. cbn [Z.eqb Pos.eqb].
    pose proof (class_shorter _ _ _ K). destruct (class_complete _ _ K) as [k ->].
    destruct (IH f) as [t ->]; [lia|]. eexists. reflexivity.
Qed.

(** ** Flags *)
Section flags.
Variable part : Z -> bool.

Lemma flags_sound s fl r : regexp_flags part s = (fl, r) ->
  exists u, s = u ++ r /\ fl = flat_map encode u /\ Forall (fun c => part c = true) u /\
    match r with [] => True | c :: _ => part c = false end.
Proof.
  revert fl r. induction s as [|c s IH]; intros fl r H; cbn [regexp_flags] in H.
  - injection H as <- <-. exists []. repeat split. constructor.
  - destruct (part c) eqn:P.
    + destruct (regexp_flags part s) as [f r']. injection H as <- <-.
      destruct (IH _ _ eq_refl) as (u & -> & -> & U & R). exists (c :: u).
      split; [reflexivity|]. split; [cbn [flat_map]; rewrite units_encode; reflexivity|].
      split; [constructor; assumption|exact R].
    + injection H as <- <-. exists []. split; [reflexivity|]. split; [reflexivity|]. split; [constructor|exact P].
Qed.

Lemma flags_complete u r : Forall (fun c => part c = true) u ->
  match r with [] => True | c :: _ => part c = false end ->
  regexp_flags part (u ++ r) = (flat_map encode u, r).
Proof.
  induction u as [|c u IH]; intros U R; cbn [app].
  - destruct r as [|c r]; [reflexivity|]. cbn [regexp_flags]. rewrite R. reflexivity.
  - inversion U; subst. cbn [regexp_flags]. rewrite H1, IH by assumption. rewrite units_encode. reflexivity.
Qed.

Theorem regexp_sound s b fl r : ~ class_escape s ->
  lex_regexp part s = Some (b, fl, r) -> standard_regexp part s b fl r.
Proof.
  unfold lex_regexp. intros NC H. destruct (regexp_body (length s) s) as [[t r0]|] eqn:B; [|discriminate].
  destruct (regexp_flags part r0) as [f r1] eqn:F. injection H as <- <- <-.
  destruct (flags_sound _ _ _ F) as (u & -> & -> & U & R).
  destruct (regexp_body_text _ _ _ _ B) as (src & E & ->).
  exists src, u. split; [exact E|]. split; [|tauto].
  exact (rbody_sound _ (fun c _ => Logic.I) _ _ _ _ NC B).
Qed.

Theorem regexp_complete s b fl r : regexp_literal (fun c => c <> 93) part s b fl r ->
  lex_regexp part s = Some (b, fl, r).
Proof.
  intros (src & u & E & B & -> & -> & U & R). unfold lex_regexp.
  destruct (rbody_complete _ _ B (length s) (le_n _)) as [t BT]. rewrite BT.
  destruct (regexp_body_text _ _ _ _ BT) as (src' & E' & ->).
  assert (src' = src) as ->.
  { rewrite E in E'. apply app_inv_tail in E'. symmetry. exact E'. }
  rewrite (flags_complete _ _ U R). reflexivity.
Qed.

Lemma class_mono s r : class_chars (fun _ => True) s r -> ~ class_escape s -> class_chars (fun c => c <> 93) s r.
Proof.
  induction 1 as [r|c s r N1 N2 LT H IH|c s r N LT H IH]; intro NC.
  - constructor.
  - apply cc_char; try assumption. apply IH. intro X. apply NC. exact (class_escape_app [c] s X).
  - apply cc_escape; [intros ->; apply NC; exists [], s; reflexivity|exact LT|].
    apply IH. intro X. apply NC. exact (class_escape_app [92; c] s X).
Qed.

Lemma class_suffix P s r : class_chars P s r -> exists u, s = u ++ r.
Proof.
  induction 1 as [r|c s r N1 N2 LT H [u ->]|c s r N LT H [u ->]].
  - exists [93]. reflexivity.
  - exists (c :: u). reflexivity.
  - exists (92 :: c :: u). reflexivity.
Qed.

Lemma body_mono s r : body_chars (fun _ => True) s r -> ~ class_escape s -> body_chars (fun c => c <> 93) s r.
Proof.
  induction 1 as [r|c s r N1 N2 N3 LT H IH|c s r LT H IH|s s' r K H IH]; intro NC.
  - constructor.
  - apply bc_char; try assumption. apply IH. intro X. apply NC. exact (class_escape_app [c] s X).
  - apply bc_escape; [exact LT|]. apply IH. intro X. apply NC. exact (class_escape_app [92; c] s X).
  - apply (bc_class _ s s').
    + apply class_mono; [exact K|]. intro X. apply NC. exact (class_escape_app [91] s X).
    + apply IH. destruct (class_suffix _ _ _ K) as [u ->]. intro X. apply NC.
      exact (class_escape_app (91 :: u) s' X).
Qed.

Theorem regexp_exact s b fl r : ~ class_escape s ->
  (lex_regexp part s = Some (b, fl, r) <-> standard_regexp part s b fl r).
Proof.
  intro NC. split; [exact (regexp_sound s b fl r NC)|].
  intros (src & u & E & B & R). apply regexp_complete. exists src, u. split; [exact E|].
  split; [exact (body_mono _ _ B NC)|exact R].
Qed.

End flags.

(** ** Braces *)
Definition event (e : lex_event) : brace_event :=
  let st k := if k : bool then Close else Subst in
  match e with ELeft => LBrace | ERight k => RBrace (st k) | EBackquote k => Backquote (st k) end.

(** The levels of the substitutions that are open *)
Fixpoint matches (o : list opener) (l : Z) (t : list Z) : Prop :=
  match o with
  | [] => t = []
  | OBrace :: o' => matches o' (l - 1) t
  | OSubst :: o' => exists t', t = l :: t' /\ matches o' l t'
  end.

Lemma matches_le o : forall l t x, matches o l t -> In x t -> x <= l.
Proof.
  induction o as [|[|] o IH]; intros l t x M I; cbn in M.
  - subst t. destruct I.
  - specialize (IH _ _ _ M I). lia.
  - destruct M as (t' & -> & M). destruct I as [->|I]; [lia|]. exact (IH _ _ _ M I).
Qed.

Lemma brace_step_ok o b e : matches o (level b) (templates b) ->
  let '(b', x) := brace_step b (event e) in let '(o', y) := nest o e in
  matches o' (level b') (templates b') /\ x = y.
Proof.
  destruct b as [l t]. cbn [level templates]. intro M. destruct e as [|k|k]; cbn [event brace_step nest].
  - split; [|reflexivity]. cbn. replace (l + 1 - 1) with l by lia. exact M.
  - unfold at_close, resumes. cbn [level templates]. destruct o as [|[|] o]; cbn in M.
    + subst t. destruct k; split; reflexivity.
    + assert (R : match t with [] => false | x :: _ => x =? l end = false).
      { destruct t as [|x t]; [reflexivity|]. apply Z.eqb_neq.
        pose proof (matches_le _ _ _ x M (or_introl eq_refl)). lia. }
      rewrite R. destruct k; (split; [exact M|reflexivity]).
    + destruct M as (t' & -> & M). rewrite Z.eqb_refl. destruct k; (split; [|reflexivity]).
      * exact M.
      * exists t'. split; [reflexivity|exact M].
  - destruct k; cbn [at_backquote]; (split; [|reflexivity]); [exact M|].
    cbn. exists t. split; [reflexivity|exact M].
Qed.

(** The answers for a sequence of events *)
Fixpoint run_braces (b : braces) (es : list lex_event) : list bool :=
  match es with
  | [] => []
  | e :: r => let '(b', x) := brace_step b (event e) in x :: run_braces b' r
  end.
Fixpoint run_nest (o : list opener) (es : list lex_event) : list bool :=
  match es with
  | [] => []
  | e :: r => let '(o', x) := nest o e in x :: run_nest o' r
  end.

Theorem braces_exact es : run_braces (Braces 0 []) es = run_nest [] es.
Proof.
  assert (H : forall es b o, matches o (level b) (templates b) -> run_braces b es = run_nest o es).
  { clear. induction es as [|e es IH]; intros b o M; [reflexivity|]. cbn [run_braces run_nest].
    pose proof (brace_step_ok o b e M) as K.
    destruct (brace_step b (event e)) as [b' x]. destruct (nest o e) as [o' y]. destruct K as [M' ->].
    rewrite (IH b' o' M'). reflexivity. }
  apply H. reflexivity.
Qed.
