(** * Proofs about template literals *)
Require Import ZArith List Bool Lia.
From Verif Require Import LexTextModel LexTextSpec LexTextString.
Import ListNotations.
Local Open Scope Z_scope.

Definition close_of (k : stop) : bool := match k with Close => true | Subst => false end.

(** ** Digits in braces, when they are bad *)
Lemma brace_bad templ : forall s v0 w r, -1 <= v0 <= 0x10ffff -> brace_digits templ s v0 = EBad w r ->
  s = w ++ r /\
  (r = [] \/
   exists d, xs d /\
     ((w = d ++ [125] /\ (v0 = -1 \/ 0x10ffff < mv v0 d)) \/
      (w = d /\ next_not is_hex r /\ next_not (fun c => c = 125) r))).
Proof.
  induction s as [|c s IH]; intros v0 w r V H.
  - cbn [brace_digits] in H. destruct (templ && (0 <=? v0)); [discriminate|]. injection H as <- <-. tauto.
  - cbn [brace_digits] in H. destruct (Z.eqb_spec c 125) as [->|N].
    + destruct (Z.leb_spec 0 v0); [discriminate|]. injection H as <- <-. split; [reflexivity|].
      right. exists []. split; [constructor|]. left. split; [reflexivity|lia].
    + destruct (is_xdigit c) eqn:X.
      * destruct (Z.ltb_spec v0 0); [discriminate|]. rewrite (step_value _ _ X) in H.
        pose proof (hex_bound c X).
        set (v1 := if 0x10ffff <? 16 * v0 + hex_value c then -1 else 16 * v0 + hex_value c) in *.
        assert (V1 : (v1 = -1 /\ 0x10ffff < 16 * v0 + hex_value c) \/
                     (v1 = 16 * v0 + hex_value c /\ v1 <= 0x10ffff)).
        { unfold v1. destruct (Z.ltb_spec 0x10ffff (16 * v0 + hex_value c)); lia. }
        destruct (brace_digits templ s v1) eqn:D; try discriminate. injection H as <- <-.
        assert (V' : -1 <= v1 <= 0x10ffff) by lia.
        destruct (IH _ _ _ V' D) as [-> [E|(d & XD & C)]]; (split; [reflexivity|]); [tauto|].
        right. exists (c :: d). split; [constructor; assumption|].
        destruct C as [[-> C]|[-> C]]; [left|right; split; [reflexivity|exact C]].
        split; [reflexivity|]. right. rewrite mv_cons. pose proof (mv_ge d (16 * v0 + hex_value c) XD).
        destruct C as [E|E]; [lia|]. destruct V1 as [[E1 E2]|[E1 _]]; [lia|]. rewrite E1 in E. exact E.
      * injection H as <- <-. split; [reflexivity|]. right. exists []. split; [constructor|]. right.
        split; [reflexivity|]. split; [apply no_next_hex; exact X|exact N].
Qed.

Lemma brace_app templ : forall s v0 v w r, brace_digits templ s v0 = EVal v w r -> s = w ++ r.
Proof.
  induction s as [|c s IH]; intros v0 v w r H.
  - cbn [brace_digits] in H. destruct (templ && (0 <=? v0)); [|discriminate]. injection H as <- <- <-. reflexivity.
  - cbn [brace_digits] in H. destruct (Z.eqb_spec c 125) as [->|N].
    + destruct (0 <=? v0); [|discriminate]. injection H as <- <- <-. reflexivity.
    + destruct (is_xdigit c); [|discriminate]. destruct (v0 <? 0); [discriminate|].
      match type of H with econs c ?t = _ => destruct t eqn:D; try discriminate end.
      injection H as <- <- <-. rewrite (IH _ _ _ _ D). reflexivity.
Qed.

Lemma unicode_app templ s v w r : unicode_escape templ s = EVal v w r -> s = w ++ r /\ w <> [].
Proof.
  unfold unicode_escape. destruct s as [|c s].
  - discriminate.
  - destruct (Z.eqb_spec c 123) as [->|N].
    + destruct (brace_digits templ s 0) eqn:D; try discriminate. intro H. injection H as <- <- <-.
      rewrite (brace_app _ _ _ _ _ _ D). split; [reflexivity|discriminate].
    + intro H. apply hex_digits_val in H. destruct H as (E & L & _). split; [exact E|].
      intros ->. discriminate.
Qed.

Lemma unicode_bad templ s w r : unicode_escape templ s = EBad w r -> s = w ++ r.
Proof.
  unfold unicode_escape. destruct s as [|c s].
  - intro H. apply hex_digits_bad in H. tauto.
  - destruct (Z.eqb_spec c 123) as [->|N].
    + destruct (brace_digits templ s 0) eqn:D; try discriminate. intro H. injection H as <- <-.
      apply brace_bad in D; [|lia]. destruct D as [-> _]. reflexivity.
    + intro H. apply hex_digits_bad in H. tauto.
Qed.

(** ** What an escape takes from the input *)
Lemma escape_text s v w r : template_escape s = Ok (v, w, r) ->
  exists u, u <> [] /\ s = u ++ r /\ w = flat_map units u.
Proof.
  destruct s as [|c s]; [discriminate|]. cbn [template_escape]. intro H.
  assert (One : forall x, exists u, u <> [] /\ c :: x = u ++ x /\ units c = flat_map units u).
  { intro x. exists [c]. split; [discriminate|]. split; [reflexivity|]. cbn. rewrite app_nil_r. reflexivity. }
  destruct (simple_escape c); [injection H as <- <- <-; apply One|].
  destruct (c =? 120).
  { destruct (hex_digits 2 s 0) eqn:D; try discriminate; injection H as <- <- <-;
      [apply hex_digits_val in D|apply hex_digits_bad in D]; destruct D as [-> _];
      match goal with |- context [?w' ++ ?r'] => exists (c :: w') end;
      (split; [discriminate|split; reflexivity]). }
  destruct (c =? 117).
  { destruct (unicode_escape true s) eqn:D; try discriminate; injection H as <- <- <-;
      [apply unicode_app in D; destruct D as [-> _]|apply unicode_bad in D; rewrite D];
      match goal with |- context [?w' ++ ?r'] => exists (c :: w') end;
      (split; [discriminate|split; reflexivity]). }
  destruct (c =? 48).
  { destruct (negb (is_digit (peek s))); injection H as <- <- <-; apply One. }
  destruct (is_digit c); [injection H as <- <- <-; apply One|].
  destruct (is_line_terminator c); injection H as <- <- <-; apply One.
Qed.

Lemma body_raw : forall f s v w k r, template_body f s = Ok (v, w, k, r) ->
  exists src, s = src ++ closing (close_of k) ++ r /\ w = flat_map encode src.
Proof.
  assert (FE : forall l, flat_map units l = flat_map encode l).
  { induction l as [|c l IH]; [reflexivity|]. cbn [flat_map]. rewrite units_encode, IH. reflexivity. }
  induction f as [|f IH]; intros s v w k r H; [discriminate|].
  cbn [template_body] in H. destruct s as [|c s]; [discriminate|].
  destruct (Z.eqb_spec c 96) as [->|N1].
  { injection H as <- <- <- <-. exists []. split; reflexivity. }
  destruct ((c =? 36) && (peek s =? 123)) eqn:SB.
  { bdestr. injection H as <- <- <- <-. subst c. destruct s as [|d s]; [discriminate|].
    cbn [peek] in H1. subst d. exists []. split; reflexivity. }
  destruct (Z.eqb_spec c 92) as [->|N2].
  - destruct (template_escape s) as [((x, y), s')| |] eqn:E; try discriminate.
    destruct (template_body f s') as [(((t, raw), k'), r')| |] eqn:B; try discriminate.
    injection H as <- <- <- <-. destruct (IH _ _ _ _ _ B) as (src & -> & ->).
    destruct (escape_text _ _ _ _ E) as (u & _ & -> & ->).
    exists (92 :: u ++ src). split; [cbn; rewrite <- app_assoc; reflexivity|].
    cbn [flat_map]. rewrite flat_map_app, FE. reflexivity.
  - destruct (template_body f s) as [(((t, raw), k'), r')| |] eqn:B; try discriminate.
    injection H as <- <- <- <-. destruct (IH _ _ _ _ _ B) as (src & -> & ->).
    exists (c :: src). split; [reflexivity|]. cbn [flat_map]. rewrite units_encode. reflexivity.
Qed.

(** ** Equal lengths mean equal texts. *)
Lemma units_two c : (1 <= length (units c) <= 2)%nat.
Proof. unfold units. destruct (0xffff <? c); cbn; lia. Qed.

Lemma flat_length u : (length u <= length (flat_map units u))%nat.
Proof.
  induction u as [|c u IH]; [cbn; lia|]. cbn [flat_map]. rewrite app_length. pose proof (units_two c). cbn; lia.
Qed.

Lemma escape_shorter s v w r : template_escape s = Ok (Some v, w, r) -> (length v <= length w)%nat.
Proof.
  destruct s as [|c s]; [discriminate|]. cbn [template_escape]. intro H. pose proof (units_two c) as UC.
  destruct (simple_escape c) as [x|] eqn:SE.
  { injection H as <- <- <-. apply simple_iff in SE. destruct SE as [SE _]. apply single_small in SE.
    rewrite (units_small x) by lia. cbn [length]. lia. }
  destruct (c =? 120).
  { destruct (hex_digits 2 s 0) eqn:D; try discriminate; injection H as <- <- <-.
    apply hex_digits_val in D. destruct D as (_ & L & _). rewrite app_length.
    pose proof (flat_length w0). pose proof (units_two v0). lia. }
  destruct (c =? 117).
  { destruct (unicode_escape true s) eqn:D; try discriminate; injection H as <- <- <-.
    assert (w0 <> []).
    { apply unicode_app in D. tauto. }
    rewrite app_length. pose proof (flat_length w0). pose proof (units_two v0).
    destruct w0; [contradiction|]. cbn [length] in *. lia. }
  destruct (c =? 48).
  { destruct (negb (is_digit (peek s))); [|discriminate]. injection H as <- <- <-. change (length (units 0)) with 1%nat. lia. }
  destruct (is_digit c); [discriminate|].
  destruct (is_line_terminator c); injection H as <- <- <-; cbn [length]; lia.
Qed.

Lemma body_equal : forall f s t w k r, template_body f s = Ok (Some t, w, k, r) ->
  (length t <= length w)%nat /\ (length w = length t -> w = t).
Proof.
  induction f as [|f IH]; intros s t w k r H; [discriminate|].
  cbn [template_body] in H. destruct s as [|c s]; [discriminate|].
  destruct (c =? 96); [injection H as <- <- <- <-; split; [lia|reflexivity]|].
  destruct ((c =? 36) && (peek s =? 123)); [injection H as <- <- <- <-; split; [lia|reflexivity]|].
  destruct (c =? 92).
  - destruct (template_escape s) as [((x, y), s')| |] eqn:E; try discriminate.
    destruct (template_body f s') as [(((t', raw), k'), r')| |] eqn:B; try discriminate.
    destruct x as [x|]; [|discriminate]. destruct t' as [t'|]; [|discriminate].
    injection H as <- <- <- <-. destruct (IH _ _ _ _ _ B) as [L _].
    pose proof (escape_shorter _ _ _ _ E). pose proof (units_two c). rewrite !app_length. split; [lia|].
    intro. lia.
  - destruct (template_body f s) as [(((t', raw), k'), r')| |] eqn:B; try discriminate.
    destruct t' as [t'|]; [|discriminate]. injection H as <- <- <- <-.
    destruct (IH _ _ _ _ _ B) as [L E]. rewrite !app_length. split; [lia|]. intro.
    rewrite E by lia. reflexivity.
Qed.

Lemma lex_template_body s : lex_template s = template_body (length s) s.
Proof.
  unfold lex_template. destruct (template_body (length s) s) as [((([t|], w), k), r)| |] eqn:B; try reflexivity.
  destruct (body_equal _ _ _ _ _ _ B) as [_ E]. destruct (Nat.eqb_spec (length w) (length t)) as [L|]; [|reflexivity].
  rewrite (E L). reflexivity.
Qed.

(** ** Soundness *)
Lemma part_nil v k r : ~ template_part [] v k r.
Proof. intro H. remember [] as s. destruct H; try discriminate. destruct k; discriminate. Qed.

Lemma part_plain c s v k r : template_part (c :: s) v k r -> c <> 96 -> c <> 92 -> c <> 36 ->
  exists v', template_part s v' k r /\ v = both (Some (encode c)) v'.
Proof.
  intros H N1 N2 N3. remember (c :: s) as s0. destruct H; try discriminate.
  - destruct k; cbn in Heqs0; injection Heqs0 as E _; congruence.
  - injection Heqs0 as -> ->. exists v. split; [assumption|reflexivity].
  - injection Heqs0 as E _. congruence.
  - injection Heqs0 as E _. congruence.
Qed.

Lemma mv_bound w : xs w -> 0 <= mv 0 w.
Proof. intro X. pose proof (mv_ge w 0 X). lia. Qed.

Lemma tescape_some s x w r : template_escape s = Ok (Some x, w, r) -> r <> [] -> escape true s x false r.
Proof.
  destruct s as [|c s]; [discriminate|]. intros H R. cbn [template_escape] in H.
  assert (SE : forall v r', string_escape (c :: s) = Ok (v, false, r') -> escape true (c :: s) v false r').
  { intros. apply escape_sound. assumption. }
  cbn [string_escape] in SE. destruct (simple_escape c) as [y|] eqn:S1.
  { injection H as <- <- <-. apply SE. reflexivity. }
  destruct (c =? 120) eqn:C1.
  { destruct (hex_digits 2 s 0) eqn:D; try discriminate. injection H as <- <- <-. apply SE. reflexivity. }
  destruct (Z.eqb_spec c 117) as [->|N].
  { destruct (unicode_escape true s) eqn:D; try discriminate. injection H as <- <- <-.
    unfold unicode_escape in D. destruct s as [|d s]; [discriminate|].
    destruct (Z.eqb_spec d 123) as [->|N3].
    - destruct (brace_digits true s 0) eqn:B; try discriminate. injection D as <- <- <-.
      assert (V0 : 0 <= 0 <= 0x10ffff) by lia.
      destruct (brace_val _ _ _ _ _ _ V0 B) as [(u & -> & _ & X & E & LE)|[_ E]]; [|contradiction].
      rewrite units_encode. apply esc_brace; [apply hexs_iff; tauto|exact LE|discriminate].
    - destruct (hex_digits_val _ _ _ _ _ _ D) as (E & L & X & ->). rewrite E.
      pose proof (mv4_small _ X L).
      destruct w0 as [|a [|b [|e [|f [|]]]]]; try discriminate. cbn [app].
      rewrite units_small by lia. apply esc_four. apply hexs_iff. tauto. }
  destruct (Z.eqb_spec c 48) as [->|N0].
  { destruct (negb (is_digit (peek s))) eqn:PD; [|discriminate]. injection H as <- <- <-.
    change (units 0) with [0]. apply esc_nul. bdestr. apply peek_not_digit. exact PD. }
  destruct (is_digit c) eqn:DG; [discriminate|]. cbn [andb] in SE.
  destruct (is_line_terminator c) eqn:LT; injection H as <- <- <-; apply SE; reflexivity.
Qed.

Lemma tescape_none s w r v k z : template_escape s = Ok (None, w, r) -> template_part r v k z ->
  exists s' v', not_escape s s' /\ template_part s' v' k z.
Proof.
  destruct s as [|c s]; [discriminate|]. intros H T. cbn [template_escape] in H.
  destruct (simple_escape c) as [y|] eqn:S1; [discriminate|].
  destruct (Z.eqb_spec c 120) as [->|N1].
  { destruct (hex_digits 2 s 0) eqn:D; try discriminate. injection H as <- <-.
    apply hex_digits_bad in D. destruct D as (-> & L & X & NX). exists rest, v. split; [|exact T].
    destruct w0 as [|a [|b w0]]; [apply ne_hex0; exact NX| |cbn in L; lia].
    inversion X; subst. apply ne_hex1; [apply is_hex_iff; assumption|exact NX]. }
  destruct (Z.eqb_spec c 117) as [->|N2].
  { destruct (unicode_escape true s) eqn:D; try discriminate. injection H as <- <-.
    unfold unicode_escape in D. destruct s as [|d s].
    - apply hex_digits_bad in D. destruct D as (E & _). symmetry in E. apply app_eq_nil in E.
      destruct E as [_ ->]. destruct (part_nil _ _ _ T).
    - destruct (Z.eqb_spec d 123) as [->|N3].
      + destruct (brace_digits true s 0) eqn:B; try discriminate. injection D as <- <-.
        apply brace_bad in B; [|lia]. destruct B as [-> [->|(u & X & C)]]; [destruct (part_nil _ _ _ T)|].
        pose proof (mv_bound _ X).
        destruct C as [[-> C]|(-> & C1 & C2)].
        * destruct C as [C|C]; [lia|]. exists (125 :: rest0), (both (Some (encode 125)) v). split.
          -- rewrite <- app_assoc. cbn [app].
             apply (ne_big u (mv 0 u)); [apply hexs_iff; tauto|exact C|].
             cbn. apply is_hex_not. reflexivity.
          -- apply tp_char; [lia|lia|lia|exact T].
        * exists rest0, v. split; [|exact T]. destruct u as [|d u]; [apply ne_brace; exact C1|].
          destruct (Z_le_gt_dec (mv 0 (d :: u)) 0x10ffff).
          -- apply (ne_open (d :: u) (mv 0 (d :: u))); [apply hexs_iff; tauto|discriminate|assumption|exact C1|exact C2].
          -- apply (ne_big (d :: u) (mv 0 (d :: u))); [apply hexs_iff; tauto|lia|exact C1].
      + apply hex_digits_bad in D. destruct D as (E & L & X & NX). exists rest, v. split; [|exact T].
        rewrite E. apply (ne_four w0 (mv 0 w0)); [exact L|apply hexs_iff; tauto|exact NX|].
        intros ->. cbn [app] in E. rewrite <- E. exact N3. }
  destruct (Z.eqb_spec c 48) as [->|N0].
  { destruct (negb (is_digit (peek s))) eqn:PD; [discriminate|]. injection H as <- <-. bdestr.
    destruct s as [|d s]; [discriminate|]. cbn [peek] in PD. apply digit_iff in PD.
    unfold digit in PD. destruct (part_plain _ _ _ _ _ T) as (v' & T' & _); try lia.
    exists s, v'. split; [apply ne_zero; exact PD|exact T']. }
  destruct (is_digit c) eqn:DG; [|destruct (is_line_terminator c); discriminate].
  injection H as <- <-. apply digit_iff in DG. unfold digit in DG.
  exists s, v. split; [apply ne_digit; lia|exact T].
Qed.

Lemma template_sound : forall f s v w k r, template_body f s = Ok (v, w, k, r) -> ~ empty_braces s ->
  template_part s v (close_of k) r.
Proof.
  induction f as [|f IH]; intros s v w k r H NE; [discriminate|].
  cbn [template_body] in H. destruct s as [|c s]; [discriminate|].
  destruct (Z.eqb_spec c 96) as [->|N1].
  { injection H as <- <- <- <-. exact (tp_end true s). }
  destruct ((c =? 36) && (peek s =? 123)) eqn:SB.
  { bdestr. injection H as <- <- <- <-. subst c. destruct s as [|d s]; [discriminate|].
    cbn [peek] in H1. subst d. exact (tp_end false s). }
  destruct (Z.eqb_spec c 92) as [->|N2].
  - destruct (template_escape s) as [((x, y), s')| |] eqn:E; try discriminate.
    destruct (template_body f s') as [(((t, raw), k'), r')| |] eqn:B; try discriminate.
    injection H as <- <- <- <-.
    destruct (escape_text _ _ _ _ E) as (u & _ & Eu & _).
    assert (T : template_part s' t (close_of k') r').
    { apply (IH _ _ _ _ _ B). intros (a & b & ->). apply NE. exists (92 :: u ++ a), b.
      rewrite Eu. cbn. rewrite <- app_assoc. reflexivity. }
    destruct x as [x|].
    + apply (tp_escape s s' x t); [|exact T].
      apply escape_strict.
      * apply tescape_some with (w := y); [exact E|]. intros ->. exact (part_nil _ _ _ T).
      * intros t' ->. apply NE. exists [], t'. reflexivity.
    + destruct (tescape_none _ _ _ _ _ _ E T) as (s2 & v' & NEs & T'). cbn [oapp].
      exact (tp_not _ _ _ _ _ NEs T').
  - destruct (template_body f s) as [(((t, raw), k'), r')| |] eqn:B; try discriminate.
    injection H as <- <- <- <-. rewrite units_encode.
    apply (tp_char c s t); [exact N1|exact N2| |].
    + intros [-> (s' & ->)]. discriminate.
    + apply (IH _ _ _ _ _ B). intros (a & b & ->). apply NE. exists (c :: a), b. reflexivity.
Qed.

(** ** Completeness *)
Lemma ok_inv (a a' : list Z) (b b' : bool) (c c' : list Z) : Ok (a, b, c) = Ok (a', b', c') -> a = a' /\ c = c'.
Proof. intro H. injection H. tauto. Qed.

Lemma tescape_complete s x r : escape false s x false r ->
  exists w, template_escape s = Ok (Some x, w, r).
Proof.
  intro H. pose proof (escape_complete _ _ _ _ _ H) as E.
  remember false as leg eqn:EL in H at 2. destruct H; try discriminate; clear EL.
  all: try match goal with H : octal _ |- _ => idtac end.
  - cbn [string_escape] in E. cbn [template_escape]. destruct (simple_escape c) eqn:SE.
    + injection E as <-. eexists. reflexivity.
    + destruct (simple_none _ SE _ H) as [-> | [-> | ->]]; cbn in E |- *; injection E as <-; eexists; reflexivity.
  - cbn [string_escape] in E. cbn [template_escape]. rewrite (not_single _ H) in *.
    destruct (Z.eqb_spec c 120); [contradiction|]. destruct (Z.eqb_spec c 117); [contradiction|].
    apply digit_not in H0. apply line_not in H3. destruct (Z.eqb_spec c 48) as [->|]; [discriminate|].
    rewrite H0, H3, units_encode. eexists. reflexivity.
  - cbn [template_escape].
    assert (simple_escape c = None /\ (c =? 120) = false /\ (c =? 117) = false /\ (c =? 48) = false /\ is_digit c = false)
      as (-> & -> & -> & -> & ->).
    { destruct H as [-> | [-> | [-> | ->]]]; repeat split. }
    apply line_iff in H. rewrite H. eexists. reflexivity.
  - cbn [template_escape]. apply peek_not_digit in H. rewrite H. eexists. reflexivity.
  - cbn [string_escape] in E. cbn [template_escape]. change (simple_escape 120) with (@None Z) in *.
    rewrite Z.eqb_refl in *. destruct (hex_digits 2 (a :: b :: r) 0); try discriminate.
    apply ok_inv in E. destruct E as [E1 E2]. rewrite E1, E2. eexists. reflexivity.
  - cbn [string_escape] in E. cbn [template_escape]. change (simple_escape 117) with (@None Z) in *.
    change (117 =? 120) with false in *. rewrite Z.eqb_refl in *.
    assert (N : (a =? 123) = false).
    { apply hexs_iff in H. destruct H as [X _]. inversion X; subst. apply Z.eqb_neq. intros ->. discriminate. }
    unfold unicode_escape in *. rewrite N in *.
    destruct (hex_digits 4 (a :: b :: c :: d :: r) 0); try discriminate.
    apply ok_inv in E. destruct E as [E1 E2]. rewrite E1, E2. eexists. reflexivity.
  - cbn [template_escape]. change (simple_escape 117) with (@None Z).
    change (117 =? 120) with false. rewrite Z.eqb_refl. unfold unicode_escape. rewrite Z.eqb_refl.
    apply hexs_iff in H. destruct H as [X ->]. rewrite brace_complete by (assumption || lia).
    cbn [econs]. rewrite units_encode. eexists. reflexivity.
Qed.

Lemma brace_big w : forall v0 r, xs w -> 0 <= v0 <= 0x10ffff -> 0x10ffff < mv v0 w -> next_not is_hex r ->
  brace_digits true (w ++ r) v0 = EUndef \/
  (exists r', r = 125 :: r' /\ brace_digits true (w ++ r) v0 = EBad (w ++ [125]) r') \/
  brace_digits true (w ++ r) v0 = EBad w r.
Proof.
  induction w as [|c w IH]; intros v0 r X V B N; [cbn in B; lia|].
  inversion X as [|? ? C X']; subst. cbn [app brace_digits].
  destruct (Z.eqb_spec c 125) as [->|N1]; [discriminate|]. rewrite C, (step_value _ _ C).
  destruct (Z.ltb_spec v0 0); [lia|]. pose proof (hex_bound c C). rewrite mv_cons in B.
  destruct (Z.ltb_spec 0x10ffff (16 * v0 + hex_value c)).
  - destruct w as [|d w].
    + cbn [app]. destruct r as [|d r].
      * right. right. reflexivity.
      * apply no_next_hex in N. cbn [brace_digits]. destruct (Z.eqb_spec d 125) as [->|N2].
        -- right. left. exists r. split; reflexivity.
        -- rewrite N. right. right. reflexivity.
    + left. inversion X' as [|? ? D _]; subst. cbn [app brace_digits].
      destruct (Z.eqb_spec d 125) as [->|N2]; [discriminate|]. rewrite D. reflexivity.
  - destruct (IH (16 * v0 + hex_value c) r X') as [E|[(r' & -> & E)|E]]; try lia; try assumption; rewrite E.
    + left. reflexivity.
    + right. left. exists r'. split; reflexivity.
    + right. right. reflexivity.
Qed.

Lemma brace_open w : forall v0 c r, xs w -> 0 <= v0 -> mv v0 w <= 0x10ffff ->
  is_xdigit c = false -> c <> 125 ->
  brace_digits true (w ++ c :: r) v0 = EBad w (c :: r).
Proof.
  induction w as [|d w IH]; intros v0 c r X V B N1 N2.
  - cbn [app brace_digits]. destruct (Z.eqb_spec c 125); [contradiction|]. rewrite N1. reflexivity.
  - inversion X as [|? ? D X']; subst. cbn [app brace_digits].
    destruct (Z.eqb_spec d 125) as [->|N3]; [discriminate|]. rewrite D, (step_value _ _ D).
    destruct (Z.ltb_spec v0 0); [lia|]. pose proof (hex_bound d D). rewrite mv_cons in B.
    pose proof (mv_ge w (16 * v0 + hex_value d) X').
    destruct (Z.ltb_spec 0x10ffff (16 * v0 + hex_value d)); [lia|].
    rewrite IH by (assumption || lia). reflexivity.
Qed.

(** What the code does at a sequence that is not an escape *)
Lemma tescape_not s s' : not_escape s s' -> s' <> [] -> (forall t, s <> 117 :: 123 :: 125 :: t) ->
  template_escape s = Undef \/
  exists w r, template_escape s = Ok (None, w, r) /\
    (r = s' \/ s' = 125 :: r \/ exists d, digit d /\ r = d :: s').
Proof.
  intros H NN NB. destruct H.
  - right. exists (units 48), (d :: r). split.
    + apply digit_iff in H. cbn [template_escape simple_escape Z.eqb Pos.eqb peek]. rewrite H. reflexivity.
    + right. right. exists d. tauto.
  - assert (D : digit d) by (unfold digit; lia). destruct (digit_not_single _ D) as (S1 & S2 & S3).
    apply digit_iff in D. right. exists (units d), r. split; [|tauto]. cbn [template_escape].
    rewrite S1, S2, S3, D. destruct (Z.eqb_spec d 48); [lia|]. reflexivity.
  - right. cbn [template_escape]. change (simple_escape 120) with (@None Z). rewrite Z.eqb_refl.
    assert (HS : hex_digits 2 r 0 = EBad [] r).
    { apply (hex_digits_short 2 [] 0 r); [apply Forall_nil|cbn; lia|assumption]. }
    rewrite HS.
    eexists _, r. split; [reflexivity|tauto].
  - right. cbn [template_escape]. change (simple_escape 120) with (@None Z). rewrite Z.eqb_refl.
    change (a :: r) with ([a] ++ r).
    rewrite (hex_digits_short 2 [a] 0 r); [|constructor; [apply is_hex_iff; assumption|constructor]|cbn; lia|assumption].
    eexists _, r. split; [reflexivity|tauto].
  - right. apply hexs_iff in H0. destruct H0 as [X _].
    cbn [template_escape]. change (simple_escape 117) with (@None Z).
    change (117 =? 120) with false. rewrite Z.eqb_refl.
    assert (U : unicode_escape true (w ++ r) = hex_digits 4 (w ++ r) 0).
    { unfold unicode_escape. destruct (w ++ r) as [|c t] eqn:E; [reflexivity|].
      destruct (Z.eqb_spec c 123) as [->|]; [|reflexivity]. exfalso.
      destruct w as [|d w].
      - cbn [app] in E. subst r. exact (H2 eq_refl eq_refl).
      - injection E as -> _. inversion X. discriminate. }
    rewrite U, (hex_digits_short 4 w 0 r) by assumption. eexists _, r. split; [reflexivity|tauto].
  - right. cbn [template_escape]. change (simple_escape 117) with (@None Z).
    change (117 =? 120) with false. rewrite Z.eqb_refl. unfold unicode_escape. rewrite Z.eqb_refl.
    destruct r as [|c r]; [contradiction|]. apply no_next_hex in H.
    assert (HS : brace_digits true (c :: r) 0 = EBad [] (c :: r)).
    { apply (brace_open [] 0 c r); [apply Forall_nil|lia|cbn; lia|exact H|]. intros ->. exact (NB r eq_refl). }
    rewrite HS. eexists _, (c :: r). split; [reflexivity|tauto].
  - apply hexs_iff in H. destruct H as [X ->].
    cbn [template_escape]. change (simple_escape 117) with (@None Z).
    change (117 =? 120) with false. rewrite Z.eqb_refl. unfold unicode_escape. rewrite Z.eqb_refl.
    assert (V : 0 <= 0 <= 0x10ffff) by lia.
    destruct (brace_big w 0 r X V H0 H1) as [E|[(r' & -> & E)|E]]; rewrite E; cbn [econs].
    + left. reflexivity.
    + right. eexists _, r'. split; [reflexivity|tauto].
    + right. eexists _, r. split; [reflexivity|tauto].
  - right. apply hexs_iff in H. destruct H as [X ->].
    cbn [template_escape]. change (simple_escape 117) with (@None Z).
    change (117 =? 120) with false. rewrite Z.eqb_refl. unfold unicode_escape. rewrite Z.eqb_refl.
    destruct r as [|c r]; [contradiction|]. apply no_next_hex in H2. cbn in H3.
    rewrite (brace_open w 0 c r X) by (assumption || lia). eexists _, (c :: r). split; [reflexivity|tauto].
Qed.

Lemma not_escape_suffix s s' : not_escape s s' -> exists w, w <> [] /\ s = w ++ s'.
Proof.
  destruct 1.
  - exists [48; d]. split; [discriminate|reflexivity].
  - exists [d]. split; [discriminate|reflexivity].
  - exists [120]. split; [discriminate|reflexivity].
  - exists [120; a]. split; [discriminate|reflexivity].
  - exists (117 :: w). split; [discriminate|reflexivity].
  - exists [117; 123]. split; [discriminate|reflexivity].
  - exists (117 :: 123 :: w). split; [discriminate|reflexivity].
  - exists (117 :: 123 :: w). split; [discriminate|reflexivity].
Qed.

(** A text for which nothing undefined happens, as the code reads it *)
Lemma template_complete s v k r : template_part s v k r -> ~ empty_braces s ->
  forall f, (length s <= f)%nat ->
  template_body f s = Undef \/ exists w k', template_body f s = Ok (v, w, k', r) /\ close_of k' = k.
Proof.
  induction 1 as [k r|c s v k r N1 N2 N3 T IH|s s' x v k r E T IH|s s' v k r E T IH]; intros NE f F.
  - right. destruct f; [destruct k; cbn in F; lia|]. destruct k.
    + exists [], Close. split; reflexivity.
    + exists [], Subst. split; reflexivity.
  - destruct f; [cbn in F; lia|]. cbn [template_body].
    destruct (Z.eqb_spec c 96); [contradiction|].
    assert ((c =? 36) && (peek s =? 123) = false) as ->.
    { destruct (Z.eqb_spec c 36) as [->|]; [|reflexivity]. cbn [andb]. apply Z.eqb_neq. intro P.
      apply N3. split; [reflexivity|]. destruct s as [|d s]; [discriminate|]. cbn in P. subst d. exists s. reflexivity. }
    destruct (Z.eqb_spec c 92); [contradiction|].
    assert (NE' : ~ empty_braces s).
    { intros (a & b & ->). apply NE. exists (c :: a), b. reflexivity. }
    destruct (IH NE' f) as [U|(w & k' & B & K)]; [cbn in F; lia|rewrite U; left; reflexivity|].
    right. rewrite B, units_encode. eexists _, k'. split; [reflexivity|exact K].
  - destruct f; [cbn in F; lia|]. cbn [template_body Z.eqb Pos.eqb andb].
    destruct (tescape_complete _ _ _ E) as [y ->].
    assert (NE' : ~ empty_braces s').
    { intros (a & b & ->). destruct (escape_suffix _ _ _ _ _ E) as [w ->].
      apply NE. exists (92 :: w ++ a), b. cbn. rewrite <- app_assoc. reflexivity. }
    pose proof (escape_length _ _ _ _ _ E).
    destruct (IH NE' f) as [U|(w & k' & B & K)]; [cbn in F; lia|rewrite U; left; reflexivity|].
    right. rewrite B. eexists _, k'. split; [reflexivity|exact K].
  - destruct f; [cbn in F; lia|]. cbn [template_body Z.eqb Pos.eqb andb].
    destruct (not_escape_suffix _ _ E) as (u & UN & ->).
    assert (NE' : ~ empty_braces s').
    { intros (a & b & ->). apply NE. exists (92 :: u ++ a), b. cbn. rewrite <- app_assoc. reflexivity. }
    cbn [length] in F. rewrite app_length in F.
    assert (0 < length u)%nat by (destruct u; [contradiction|cbn; lia]).
    destruct (tescape_not _ _ E) as [U|(y & q & E' & C)].
    + intros ->. exact (part_nil _ _ _ T).
    + intros t Et. apply NE. exists [], t. rewrite Et. reflexivity.
    + rewrite U. left. reflexivity.
    + rewrite E'. destruct C as [->|[->|(d & D & ->)]].
      * destruct (IH NE' f) as [U|(w & k' & B & K)]; [lia|rewrite U; left; reflexivity|].
        right. rewrite B. eexists _, k'. split; [reflexivity|exact K].
      * destruct (IH NE' (S f)) as [U|(w & k' & B & K)]; [lia| |].
        -- cbn [template_body Z.eqb Pos.eqb andb] in U.
           destruct (template_body f q) as [(((t, raw), k'), r')| |]; try discriminate. left. reflexivity.
        -- cbn [template_body Z.eqb Pos.eqb andb] in B.
           destruct (template_body f q) as [(((t, raw), k2), r')| |]; try discriminate.
           injection B as _ _ <- <-. right. eexists _, k2. split; [reflexivity|exact K].
      * destruct f as [|f]; [lia|].
        assert (P : (d =? 96) = false /\ (d =? 36) = false /\ (d =? 92) = false).
        { unfold digit in D. repeat split; apply Z.eqb_neq; lia. }
        destruct P as (P1 & P2 & P3). cbn [template_body]. rewrite P1, P2, P3. cbn [andb].
        destruct (IH NE' f) as [U|(w & k' & B & K)]; [lia|rewrite U; left; reflexivity|].
        right. rewrite B. eexists _, k'. split; [reflexivity|exact K].
Qed.

(** ** Undefined behaviour: a digit too many *)
Definition too_long (s : list Z) : Prop :=
  exists a w v c b, s = a ++ 92 :: 117 :: 123 :: w ++ c :: b /\ hexs w v /\ 0x10ffff < v /\ is_hex c.

Lemma tescape_undef s : template_escape s = Undef ->
  exists w c b, s = 117 :: 123 :: w ++ c :: b /\ hexs w (mv 0 w) /\ 0x10ffff < mv 0 w /\ is_hex c.
Proof.
  destruct s as [|c s]; [discriminate|]. intro H. cbn [template_escape] in H.
  destruct (simple_escape c); [discriminate|].
  destruct (c =? 120).
  { destruct (hex_digits 2 s 0) eqn:D; try discriminate. destruct (hex_digits_undef _ _ _ D). }
  destruct (Z.eqb_spec c 117) as [->|N].
  { destruct (unicode_escape true s) eqn:D; try discriminate. unfold unicode_escape in D.
    destruct s as [|d s]; [discriminate|]. destruct (Z.eqb_spec d 123) as [->|N3].
    - destruct (brace_digits true s 0) eqn:B; try discriminate.
      apply brace_undef in B; [|lia]. destruct B as [[B _]|(_ & w & c & r & -> & X & C & L)]; [lia|].
      exists w, c, r. split; [reflexivity|]. split; [apply hexs_iff; tauto|]. split; [exact L|apply is_hex_iff; exact C].
    - destruct (hex_digits_undef _ _ _ D). }
  destruct (c =? 48); [destruct (negb (is_digit (peek s))); discriminate|].
  destruct (is_digit c); [discriminate|]. destruct (is_line_terminator c); discriminate.
Qed.

Lemma template_undef : forall f s, template_body f s = Undef -> too_long s.
Proof.
  induction f as [|f IH]; intros s H; [discriminate|].
  cbn [template_body] in H. destruct s as [|c s]; [discriminate|].
  destruct (c =? 96); [discriminate|]. destruct ((c =? 36) && (peek s =? 123)); [discriminate|].
  destruct (Z.eqb_spec c 92) as [->|N].
  - destruct (template_escape s) as [((x, y), s')| |] eqn:E; try discriminate.
    + destruct (template_body f s') as [(((t, raw), k'), r')| |] eqn:B; try discriminate.
      destruct (IH _ B) as (a & w & v & d & b & -> & R). destruct (escape_text _ _ _ _ E) as (u & _ & -> & _).
      exists (92 :: u ++ a), w, v, d, b. split; [cbn; rewrite <- app_assoc; reflexivity|exact R].
    + destruct (tescape_undef _ E) as (w & d & b & -> & R). exists [], w, (mv 0 w), d, b. split; [reflexivity|exact R].
  - destruct (template_body f s) as [(((t, raw), k'), r')| |] eqn:B; try discriminate.
    destruct (IH _ B) as (a & w & v & d & b & -> & R). exists (c :: a), w, v, d, b. split; [reflexivity|exact R].
Qed.

Theorem template_exact s c raw k r : ~ empty_braces s -> ~ too_long s ->
  (lex_template s = Ok (c, raw, k, r) <->
   template_part s c (close_of k) r /\ raw_text s (close_of k) r raw).
Proof.
  intros NE NL. rewrite lex_template_body. split.
  - intro H. split; [exact (template_sound _ _ _ _ _ _ H NE)|exact (body_raw _ _ _ _ _ _ H)].
  - intros [T (src & E & ->)].
    destruct (template_complete _ _ _ _ T NE (length s) (le_n _)) as [U|(w & k' & B & K)].
    { destruct (NL (template_undef _ _ U)). }
    assert (k' = k) by (destruct k, k'; (reflexivity || discriminate)). subst k'.
    rewrite B. destruct (body_raw _ _ _ _ _ _ B) as (src' & E' & ->).
    assert (src' = src) as ->; [|reflexivity].
    rewrite E in E'. apply app_inv_tail in E'. symmetry. exact E'.
Qed.
