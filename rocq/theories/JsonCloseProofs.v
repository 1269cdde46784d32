(** String tokens of the JSON lexer end with their closing quote. *)
From Coq Require Import List ZArith Bool Lia String.
From Verif Require Import StrModel StrProofs UriProofs JsonModel JsonSpec JsonLexProofs.
Import ListNotations.
Local Open Scope Z_scope.

Definition tail_of (r s : str) : Prop := exists p, s = p ++ r.
Lemma tail_refl s : tail_of s s.
Proof. exists []. reflexivity. Qed.
Lemma tail_trans a b c : tail_of a b -> tail_of b c -> tail_of a c.
Proof. intros [p ->] [q ->]. exists (q ++ p). apply app_assoc. Qed.
Lemma tail_cons c r s : tail_of r s -> tail_of r (c :: s).
Proof. intros [p ->]. exists (c :: p). reflexivity. Qed.
#[local] Hint Resolve tail_refl tail_cons : core.

Lemma get_tail s c r : get s = (c, r) -> tail_of r s.
Proof.
  destruct s as [|x s]; cbn [get]; intros H.
  - inversion H; subst; auto.
  - destruct (is_leading x).
    + destruct s as [|t s']; [inversion H; subst; auto|]. destruct (is_trailing t); inversion H; subst; auto.
    + destruct (x =? 13).
      * destruct s as [|t s']; [inversion H; subst; auto|]. destruct (t =? 10); inversion H; subst; auto.
      * inversion H; subst; auto.
Qed.
Lemma get_same s c r : get s = (c, r) -> c <> -1 -> c <> 10 -> c < 0xd800 -> s = c :: r.
Proof.
  destruct s as [|x s]; cbn [get]; intros H N1 N2 L.
  - inversion H; subst; congruence.
  - destruct (is_leading x) eqn:Ex.
    + apply leading_range in Ex. destruct s as [|t s']; [inversion H; subst; lia|].
      destruct (is_trailing t) eqn:Et; inversion H; subst; [|lia].
      apply trailing_range in Et. exfalso.
      assert (0 <= Z.lor (Z.shiftl (x - 0xd800) 10) (t - 0xdc00)).
      { apply Z.lor_nonneg. split; [apply Z.shiftl_nonneg|]; lia. }
      unfold pair_to_uc in L. lia.
    + destruct (x =? 13).
      * destruct s as [|t s']; [inversion H; subst; congruence|]. destruct (t =? 10); inversion H; subst; congruence.
      * inversion H; subst; auto.
Qed.

Lemma hex_tail templ : forall n s v app a b c r, hex_digits templ n s v app = (a, b, c, r) -> tail_of r s.
Proof.
  induction n as [|n IH]; intros s v app a b c r H; cbn [hex_digits] in H; [inversion H; subst; auto|].
  destruct (get s) as [x r1] eqn:G. apply get_tail in G. destruct (is_xdigit x).
  - apply IH in H. eapply tail_trans; eauto.
  - inversion H; subst; auto.
Qed.
Lemma brace_tail templ : forall n s v e app a b c r, brace_digits templ n s v e app = LOk (a, b, c, r) -> tail_of r s.
Proof.
  induction n as [|n IH]; intros s v e app a b c r H; cbn [brace_digits] in H; [discriminate|].
  destruct (get s) as [x r1] eqn:G. apply get_tail in G.
  destruct (x =? -1); [inversion H; subst; auto|]. destruct (x =? 125); [inversion H; subst; auto|].
  destruct (is_xdigit x); [|inversion H; subst; auto].
  destruct (v <? 0); [discriminate|].
  destruct (1114111 <? Z.lor (Z.shiftl v 4) (hex_val x)); apply IH in H; eapply tail_trans; eauto.
Qed.
Lemma unicode_tail templ n s app a b c r : unicode_escape templ n s app = LOk (a, b, c, r) -> tail_of r s.
Proof.
  unfold unicode_escape. destruct (get s) as [x r1] eqn:G. apply get_tail in G. destruct (x =? 123); intros H.
  - apply brace_tail in H. eapply tail_trans; eauto.
  - apply (hex_tail templ 4 s 0 app a b c r). remember (hex_digits templ 4 s 0 app) as h. congruence.
Qed.
Lemma octal_tail s v r : octal_escape s = (v, r) -> tail_of r s.
Proof.
  unfold octal_escape. destruct (get s) as [c1 r1] eqn:G1. destruct (get r1) as [c2 r2] eqn:G2. destruct (get r2) as [c3 r3] eqn:G3.
  apply get_tail in G1, G2, G3. intros H.
  destruct ((48 <=? c1) && (c1 <=? 51) && is_octal c2 && is_octal c3);
    [|destruct (is_octal c1 && is_octal c2)]; inversion H; subst; auto;
    repeat (eapply tail_trans; [eassumption|]); auto.
Qed.

(** A string without error: closed by its quote. *)
Lemma string_closed start : start = 34 \/ start = 39 -> forall n s acc err v r,
  lex_string start n s acc err = LOk (v, false, r) -> err = false /\ tail_of (start :: r) s.
Proof.
  intros St. induction n as [|n IH]; intros s acc err v r H; cbn [lex_string] in H; [discriminate|].
  destruct (get s) as [c r0] eqn:G.
  destruct (Z.eqb_spec c start) as [Ec|Nc].
  { inversion H; subst. split; auto. apply get_same in G; try lia. subst s. auto. }
  destruct (c =? -1); [discriminate|].
  destruct (negb (c =? 8232) && negb (c =? 8233) && is_line_terminator c); [discriminate|].
  apply get_tail in G.
  assert (Step : forall s' acc' err', tail_of s' s -> lex_string start n s' acc' err' = LOk (v, false, r) ->
            err' = false /\ tail_of (start :: r) s).
  { intros s' acc' err' T K. apply IH in K. destruct K as [E T2]. split; auto. eapply tail_trans; eauto. }
  destruct (c =? 92).
  2: { eapply Step; eauto. }
  destruct (get r0) as [c1 r1] eqn:G1. pose proof (tail_trans _ _ _ (get_tail _ _ _ G1) G) as T1.
  destruct (c1 =? -1); [discriminate|].
  destruct (c1 =? 98); [eapply Step; eauto|]. destruct (c1 =? 102); [eapply Step; eauto|].
  destruct (c1 =? 110); [eapply Step; eauto|]. destruct (c1 =? 114); [eapply Step; eauto|].
  destruct (c1 =? 116); [eapply Step; eauto|]. destruct (c1 =? 118); [eapply Step; eauto|].
  destruct (c1 =? 120).
  { destruct (hex_digits false 2 r1 0 []) as [[[x e] a] r2] eqn:X. apply hex_tail in X.
    pose proof (tail_trans _ _ _ X T1) as T2.
    destruct (0 <=? x); apply Step in H; auto.
    - destruct H as [E T]. apply orb_false_iff in E. tauto.
    - destruct H; discriminate. }
  destruct (c1 =? 117).
  { destruct (unicode_escape false n r1 []) as [[[[x e] a] r2]| |] eqn:X; cbn [lbind] in H; try discriminate. apply unicode_tail in X.
    pose proof (tail_trans _ _ _ X T1) as T2.
    destruct (0 <=? x); apply Step in H; auto.
    - destruct H as [E T]. apply orb_false_iff in E. tauto.
    - destruct H; discriminate. }
  destruct (is_digit c1).
  { destruct ((c1 =? 48) && negb (is_digit (fst (get r1)))); [eapply Step; eauto|].
    destruct ((c1 =? 56) || (c1 =? 57)); [eapply Step; eauto|].
    destruct (octal_escape r0) as [x r2] eqn:X. apply octal_tail in X. eapply Step; [|exact H]. eapply tail_trans; eauto. }
  destruct (negb (is_line_terminator c1)); eapply Step; eauto.
Qed.
Lemma template_closed : forall n s acc v r,
  lex_template n s acc = LOk (v, false, r) -> tail_of (96 :: r) s.
Proof.
  induction n as [|n IH]; intros s acc v r H; cbn [lex_template] in H; [discriminate|].
  destruct (get s) as [c r0] eqn:G.
  destruct (c =? -1); [discriminate|].
  destruct (Z.eqb_spec c 96) as [Ec|Nc].
  { inversion H; subst. apply get_same in G; try lia. subst s. auto. }
  apply get_tail in G.
  assert (Step : forall s' acc', tail_of s' s -> lex_template n s' acc' = LOk (v, false, r) -> tail_of (96 :: r) s).
  { intros s' acc' T K. apply IH in K. eapply tail_trans; eauto. }
  destruct (c =? 92).
  2: { eapply Step; eauto. }
  destruct (get r0) as [c1 r1] eqn:G1. pose proof (tail_trans _ _ _ (get_tail _ _ _ G1) G) as T1.
  destruct (c1 =? 98); [eapply Step; eauto|]. destruct (c1 =? 102); [eapply Step; eauto|].
  destruct (c1 =? 110); [eapply Step; eauto|]. destruct (c1 =? 114); [eapply Step; eauto|].
  destruct (c1 =? 116); [eapply Step; eauto|]. destruct (c1 =? 118); [eapply Step; eauto|].
  destruct (c1 =? 120).
  { destruct (hex_digits true 2 r1 0 (acc ++ [92; 120])) as [[[x e] a] r2] eqn:X. apply hex_tail in X.
    pose proof (tail_trans _ _ _ X T1) as T2. destruct (0 <=? x); eapply Step; eauto. }
  destruct (c1 =? 117).
  { destruct (unicode_escape true n r1 (acc ++ [92; 117])) as [[[[x e] a] r2]| |] eqn:X; cbn [lbind] in H; try discriminate. apply unicode_tail in X.
    pose proof (tail_trans _ _ _ X T1) as T2. destruct (0 <=? x); eapply Step; eauto. }
  destruct (c1 =? 48).
  { destruct (negb (is_digit (fst (get r1)))); eapply Step; eauto. }
  destruct (is_digit c1); [eapply Step; eauto|].
  destruct (is_line_terminator c1); eapply Step; eauto.
Qed.

(** A string token ends with the quote it began with. *)
Lemma string_token_closed ids idc fuel s v r : lex_token ids idc fuel s = LOk (TString v, false, r) ->
  exists a q b, (q = 34 \/ q = 39 \/ q = 96) /\ s = a ++ q :: b ++ q :: r.
Proof.
  unfold lex_token. destruct (skip_space fuel s false) as [[[[c s0] r0] err]| |] eqn:K; cbn [lbind]; try discriminate.
  assert (Sk : forall n s err c s0 r0 e, skip_space n s err = LOk (c, s0, r0, e) -> tail_of s0 s /\ get s0 = (c, r0)).
  { clear. induction n as [|n IH]; intros s err c s0 r0 e H; cbn [skip_space] in H; [discriminate|].
    destruct (get s) as [x r] eqn:G.
    destruct (x =? -1); [inversion H; subst; auto|].
    assert (Lc : forall m t u, line_comment m t = LOk u -> tail_of u t).
    { clear. induction m as [|m IH]; intros t u H; cbn [line_comment] in H; [discriminate|].
      destruct (get t) as [x r] eqn:G. apply get_tail in G. destruct ((x <? 0) || is_line_terminator x).
      - inversion H; subst; auto.
      - apply IH in H. eapply tail_trans; eauto. }
    assert (Bc : forall m t u b, block_comment m t = LOk (u, b) -> tail_of u t).
    { clear. induction m as [|m IH]; intros t u b H; cbn [block_comment] in H; [discriminate|].
      destruct (get t) as [x r] eqn:G. apply get_tail in G. destruct (x =? 42).
      - destruct (get r) as [x1 r1] eqn:G1. apply get_tail in G1. destruct (x1 =? 47).
        + inversion H; subst. eapply tail_trans; eauto.
        + apply IH in H. eapply tail_trans; eauto.
      - destruct (x =? -1); [inversion H; subst; auto|]. apply IH in H. eapply tail_trans; eauto. }
    destruct (x =? 47).
    - destruct (get r) as [x1 r1] eqn:G1. pose proof (tail_trans _ _ _ (get_tail _ _ _ G1) (get_tail _ _ _ G)) as T.
      destruct (x1 =? 47).
      + destruct (line_comment n r1) as [r2| |] eqn:L; cbn [lbind] in H; try discriminate.
        apply Lc in L. apply IH in H. destruct H as [H H']. split; auto. eauto using tail_trans.
      + destruct (x1 =? 42).
        * destruct (block_comment n r1) as [[r2 e2]| |] eqn:L; cbn [lbind] in H; try discriminate.
          apply Bc in L. apply IH in H. destruct H as [H H']. split; auto. eauto using tail_trans.
        * inversion H; subst; auto.
    - destruct (is_white_space x).
      + apply IH in H. destruct H as [H H']. split; auto. eapply tail_trans; [exact H|]. eapply get_tail; eauto.
      + inversion H; subst; auto. }
  destruct (Sk _ _ _ _ _ _ _ K) as [[p Ep] G]. clear K Sk.
  assert (Fin : forall q, q = 34 \/ q = 39 \/ q = 96 -> c = q -> tail_of (q :: r) r0 ->
    exists a q b, (q = 34 \/ q = 39 \/ q = 96) /\ s = a ++ q :: b ++ q :: r).
  { intros q Q -> [b ->]. apply get_same in G; try lia. exists p, q, b. split; auto. subst s s0. reflexivity. }
  destruct (c =? -1); [discriminate|].
  destruct ((c =? 34) || (c =? 39)) eqn:Q.
  { destruct (lex_string c fuel r0 [] false) as [[[x e] r1]| |] eqn:L; cbn [lbind]; try discriminate.
    intros H. injection H as -> E ->. apply orb_false_iff in E. destruct E as [_ ->].
    assert (C : c = 34 \/ c = 39) by (apply orb_true_iff in Q; rewrite !Z.eqb_eq in Q; auto).
    apply string_closed in L; auto. apply (Fin c); tauto. }
  destruct (Z.eqb_spec c 96) as [C|_].
  { destruct (lex_template fuel r0 []) as [[[x e] r1]| |] eqn:L; cbn [lbind]; try discriminate.
    intros H. injection H as -> E ->. apply orb_false_iff in E. destruct E as [_ ->].
    apply template_closed in L. apply (Fin 96); tauto. }
  assert (Num : forall st, (let! (t, e, r') := lex_number ids fuel st in LOk (t, err || e, r')) <> LOk (TString v, false, r)).
  { intros st. assert (N : forall t e u, lex_number ids fuel st = LOk (t, e, u) -> forall w, t <> TString w).
    { clear. intros t e u. unfold lex_number, number_int.
      assert (N1 : forall l f b a z w, fst (fst (number_end ids l f b a z)) <> TString w).
      { intros l f b a z w. unfold number_end. destruct (get z) as [x y]. destruct ((x =? 110) && negb l && negb f); [destruct (get y)|]; discriminate. }
      assert (N2 : forall l ns f m a z t e u w, number_exp ids l ns f m a z = LOk (t, e, u) -> t <> TString w).
      { intros l ns f m a z t0 e0 u0 w. unfold number_exp. destruct (get z) as [x y].
        assert (N1' : forall f' b a z, LOk (number_end ids l f' b a z) = LOk (t0, e0, u0) -> t0 <> TString w).
        { intros f' b a0 z0 H. pose proof (N1 l f' b a0 z0 w) as Q. destruct (number_end ids l f' b a0 z0) as [[? ?] ?]. injection H as -> _ _. exact Q. }
        destruct ((x =? 101) || (x =? 69)); [|apply N1'].
        destruct (get y) as [x1 y1]. destruct (if (x1 =? 43) || (x1 =? 45) then (a ++ [x; x1], y1) else (a ++ [x], y)) as [a' s'].
        destruct (dec_digits ns m s' false false a') as [[[[s2 d2] c2] a2]| |]; cbn [lbind]; try discriminate.
        destruct (negb d2); [injection 1; intros; subst; discriminate|].
        destruct (negb ns && negb c2); [injection 1; intros; subst; discriminate|]. apply N1'. }
      assert (N3 : forall l ns m b a z t e u w, number_tail ids l ns m b a z = LOk (t, e, u) -> t <> TString w).
      { intros l ns m b a z t0 e0 u0 w. unfold number_tail. destruct (b =? 10).
        - destruct (get z) as [x y]. destruct (x =? 46).
          + destruct (dec_digits ns m y false false (a ++ [46])) as [[[[s2 d2] c2] a2]| |]; cbn [lbind]; try discriminate.
            destruct (negb ns && d2 && negb c2); [injection 1; intros; subst; discriminate|]. apply N2.
          + apply N2.
        - intros H. pose proof (N1 l false b a z w) as Q. destruct (number_end ids l false b a z) as [[? ?] ?]. injection H as -> _ _. exact Q. }
      assert (N4 : forall l ns m b z t e u w, (let! d := int_digits l ns m b z false false [] in
          match d with None => LOk number_error | Some (s', acc, base') => number_tail ids l ns m base' acc s' end) = LOk (t, e, u) -> t <> TString w).
      { intros l ns m b z t0 e0 u0 w. destruct (int_digits l ns m b z false false []) as [[[[s' acc] b']|]| |]; cbn [lbind]; try discriminate.
        - apply N3.
        - injection 1; intros; subst; discriminate. }
      destruct (get st) as [x y]. intros H w. revert H.
      destruct (x =? 46); [apply N3|]. destruct (x =? 48); [|apply N4].
      destruct (get y) as [x1 y1].
      destruct ((x1 =? 98) || (x1 =? 66)); [apply N4|]. destruct ((x1 =? 111) || (x1 =? 79)); [apply N4|].
      destruct ((x1 =? 120) || (x1 =? 88)); [apply N4|]. destruct (is_octal x1); [apply N4|].
      destruct (x1 =? 95); [injection 1; intros; subst; discriminate|apply N4]. }
    destruct (lex_number ids fuel st) as [[[t e] u]| |]; cbn [lbind]; try discriminate.
    intros H. injection H as -> _ _. exact (N _ _ _ eq_refl v eq_refl). }
  assert (Idn : forall st, (let! (t, e, r') := lex_identifier ids idc fuel st in LOk (t, err || e, r')) <> LOk (TString v, false, r)).
  { intros st. unfold lex_identifier. destruct (get st) as [x y].
    assert (F : forall z, (let! (t, e, r') := (let! (acc, e, r1) := z in LOk (TIdentifier acc, e, r1)) in LOk (t, err || e, r')) <> LOk (TString v, false, r)).
    { intros [[[? ?] ?]| |]; cbn [lbind]; discriminate. }
    destruct (x =? 92).
    - destruct (get y) as [x1 y1]. destruct (x1 =? 117); [|cbn [lbind]; discriminate].
      destruct (unicode_escape false fuel y1 []) as [[[[w e] ?] r2]| |]; cbn [lbind]; try discriminate.
      destruct (w <? 0); [cbn [lbind]; discriminate|]. destruct e; [cbn [lbind]; discriminate|].
      destruct (ids w); [apply F|cbn [lbind]; discriminate].
    - destruct (ids x); [apply F|cbn [lbind]; discriminate]. }
  destruct (c =? 46); [intros H; destruct (Num _ H)|].
  do 8 (match goal with |- context [if c =? ?k then _ else _] => destruct (c =? k); [cbn [lbind]; discriminate|] end).
  destruct (c =? 92); [intros H; destruct (Idn _ H)|].
  destruct (is_digit c); [intros H; destruct (Num _ H)|].
  destruct (ids c); [intros H; destruct (Idn _ H)|]. cbn [lbind]. discriminate.
Qed.
