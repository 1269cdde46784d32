(** * Numeric literals of programs: proofs *)
Require Import ZArith List Bool Lia QArith.
From Verif Require Import DtoaModel DtoaSpec LexNumModel LexNumSpec LexNumRound LexNumScan LexNumString LexNumConvert
  LexNumBig LexNumSourceSpec.
From Verif Require StrModel StrSpec BigModel BigSpec.
Import ListNotations.
Local Open Scope Z_scope.

Definition base_ok (r : Z) : Prop := r = 2 \/ r = 8 \/ r = 10 \/ r = 16.

Lemma digit_char : forall r c, r <= 36 -> digit_in r c -> digit_in 36 c.
Proof. unfold digit_in. intros. lia. Qed.
Lemma digit_not : forall c, digit_in 36 c -> c <> 95 /\ c <> 46 /\ c <> 43 /\ c <> 45.
Proof.
  intros c H. repeat split; intros ->; vm_compute in H; discriminate.
Qed.

Lemma separated_digits : forall r u w, separated r u w -> digits r w /\ w <> [].
Proof.
  intros r u w H. induction H as [c H|c u w H _ [IH _]|c u w H _ [IH _]]; (split; [|discriminate]);
  constructor; auto; constructor.
Qed.
Lemma separated_len : forall r u w, separated r u w -> len w <= len u.
Proof.
  intros r u w H. unfold len in *. induction H; cbn [length] in *; lia.
Qed.
Lemma separated_chars : forall r u w, separated r u w -> Forall (fun c => digit_in r c \/ c = 95) u.
Proof.
  intros r u w H. induction H; repeat (constructor; auto).
Qed.
Lemma separated_plain : forall r w, digits r w -> w <> [] -> separated r w w.
Proof.
  intros r w H. induction H as [|c w Hc H IH]; [contradiction|]. intros _.
  destruct w as [|d w]; [constructor; exact Hc|]. apply sep_next; [exact Hc|]. apply IH. discriminate.
Qed.
Lemma separated_same : forall r u w, separated r u w -> ~ In 95 u -> u = w.
Proof.
  intros r u w H. induction H as [c H|c u w H _ IH|c u w H _ IH]; intros N; [reflexivity| |].
  - rewrite IH; [reflexivity|]. intros I. apply N. right. exact I.
  - exfalso. apply N. right. left. reflexivity.
Qed.

(** ** The loops *)
Definition tail (r : Z) (zero cs : bool) (u w : list Z) : Prop :=
  separated r u w \/ (zero = true /\ u = [] /\ w = []) \/
  (cs = true /\ exists u', u = 95 :: u' /\ separated r u' w).

Lemma tail_step : forall r zero c u w, digit_in r c -> tail r true true u w -> tail r zero false (c :: u) (c :: w).
Proof.
  intros r zero c u w D [H|[(_ & -> & ->)|(_ & u' & -> & H)]]; left.
  - apply sep_next; assumption.
  - apply sep_one; assumption.
  - apply sep_under; assumption.
Qed.
Lemma tail_weak : forall r zero cs u w, tail r zero false u w -> tail r zero cs u w.
Proof. intros r zero cs u w [H|[H|(? & _)]]; [left; exact H|right; left; exact H|discriminate]. Qed.

Lemma int_loop_sound : forall ns legacy base, (base =? 8) && legacy = false -> base_ok base ->
  forall s cs dn b w t, (ns = true -> dn = true -> cs = true) ->
  int_loop ns legacy base cs dn s = Some (b, w, t) ->
  b = base /\ begins (ok_digit base) t = false /\ exists u, s = u ++ t /\ tail base (dn && cs) cs u w.
Proof.
  intros ns legacy base HL HB. induction s as [|c s IH]; intros cs dn b w t INV E.
  - cbn in E. destruct dn; [|discriminate]. cbn in E.
    destruct ns, cs; cbn in E; try discriminate; try (specialize (INV eq_refl eq_refl); discriminate);
    injection E as <- <- <-; (split; [reflexivity|split; [reflexivity|]]); exists []; (split; [reflexivity|]); right; left; auto.
  - cbn [int_loop] in E. destruct (negb ns && (c =? 95) && cs) eqn:U.
    + apply andb_prop in U. destruct U as [U ->]. apply andb_prop in U. destruct U as [NS U].
      apply Z.eqb_eq in U. subst c.
      apply IH in E; [|intros Q; subst ns; discriminate]. destruct E as (-> & B & u & -> & T). split; [reflexivity|]. split; [exact B|].
      exists (95 :: u). split; [reflexivity|]. rewrite andb_false_r in T.
      destruct T as [T|[(? & _)|(? & _)]]; [|discriminate..]. right. right. split; [reflexivity|]. exists u. auto.
    + destruct (ok_digit base c) eqn:OK.
      * destruct (int_loop ns legacy base true true s) as [[[b' w'] t']|] eqn:G; [|discriminate].
        injection E as <- <- <-. apply IH in G; [|auto]. destruct G as (-> & B & u & -> & T).
        split; [reflexivity|]. split; [exact B|]. exists (c :: u). split; [reflexivity|].
        apply tail_weak. apply tail_step; [|exact T]. apply digit_base; assumption.
      * rewrite HL in E. cbn [andb] in E. destruct dn; [|discriminate]. cbn [negb] in E.
        destruct (negb ns && negb cs) eqn:Q; [discriminate|]. injection E as <- <- <-.
        split; [reflexivity|]. split; [exact OK|]. exists []. split; [reflexivity|]. right. left.
        destruct cs; [auto|]. destruct ns; [specialize (INV eq_refl eq_refl)|]; discriminate.
Qed.

Definition stop_at (base : Z) (t : list Z) : Prop :=
  begins (ok_digit base) t = false /\ begins (Z.eqb 95) t = false.

Lemma int_loop_complete : forall ns legacy base t, (base =? 8) && legacy = false -> base_ok base -> stop_at base t ->
  forall u w, separated base u w -> (ns = true -> ~ In 95 u) -> forall cs dn,
  int_loop ns legacy base cs dn (u ++ t) = Some (base, w, t).
Proof.
  intros ns legacy base t HL HB [S1 S2] u w H.
  assert (D : forall c, digit_in base c -> (c =? 95) = false /\ ok_digit base c = true).
  { intros c Hc. split; [|apply digit_base; assumption]. apply Z.eqb_neq.
    apply digit_not. eapply digit_char; [|exact Hc]. unfold base_ok in HB. lia. }
  assert (ST : int_loop ns legacy base true true t = Some (base, [], t)).
  { destruct t as [|c t]; [cbn; rewrite andb_false_r; reflexivity|]. cbn [begins] in S1, S2.
    cbn [int_loop]. rewrite Z.eqb_sym in S2. rewrite S2, andb_false_r. cbn [andb]. rewrite S1, HL. cbn [andb negb].
    rewrite andb_false_r. reflexivity. }
  induction H as [c Hc|c u w Hc H IH|c u w Hc H IH]; intros NS cs dn; destruct (D c Hc) as [D1 D2].
  - cbn [app int_loop]. rewrite D1, andb_false_r. cbn [andb]. rewrite D2, ST. reflexivity.
  - cbn [app int_loop]. rewrite D1, andb_false_r. cbn [andb]. rewrite D2, IH; [reflexivity|].
    intros Q I. apply (NS Q). right. exact I.
  - destruct ns; [exfalso; apply (NS eq_refl); right; left; reflexivity|].
    cbn [app int_loop]. rewrite D1. cbn [andb negb]. rewrite D2. cbn [Z.eqb Pos.eqb].
    rewrite IH; [reflexivity|]. discriminate.
Qed.

Lemma frac_loop_sound : forall ns s cs dn w t, (ns = true -> dn = true -> cs = true) -> (cs = true -> dn = true) ->
  frac_loop ns cs dn s = Some (w, t) ->
  begins is_digit t = false /\ exists u, s = u ++ t /\ tail 10 (negb dn || cs) cs u w.
Proof.
  intros ns. induction s as [|c s IH]; intros cs dn w t INV INV2 E.
  - cbn in E. destruct (negb ns && dn && negb cs) eqn:Q; [discriminate|]. injection E as <- <-.
    split; [reflexivity|]. exists []. split; [reflexivity|]. right. left. split; [|auto].
    destruct dn, cs, ns; cbn in *; auto; try discriminate.
  - cbn [frac_loop] in E. destruct (negb ns && cs && (c =? 95)) eqn:U.
    + apply andb_prop in U. destruct U as [U C]. apply andb_prop in U. destruct U as [NS ->].
      apply Z.eqb_eq in C. subst c. specialize (INV2 eq_refl). subst dn.
      apply IH in E; [|intros Q; subst ns; discriminate|discriminate].
      destruct E as (B & u & -> & T). split; [exact B|]. exists (95 :: u). split; [reflexivity|].
      destruct T as [T|[(? & _)|(? & _)]]; [|discriminate..]. right. right. split; [reflexivity|]. exists u. auto.
    + destruct (is_digit c) eqn:OK.
      * destruct (frac_loop ns true true s) as [[w' t']|] eqn:G; [|discriminate].
        injection E as <- <-. apply IH in G; [|auto..]. destruct G as (B & u & -> & T).
        split; [exact B|]. exists (c :: u). split; [reflexivity|].
        apply tail_weak. apply tail_step; [|exact T]. apply digit_ten; assumption.
      * destruct (negb ns && dn && negb cs) eqn:Q; [discriminate|]. injection E as <- <-.
        split; [exact OK|]. exists []. split; [reflexivity|]. right. left. split; [|auto].
        destruct dn, cs, ns; cbn in *; auto; try discriminate.
Qed.

Lemma frac_loop_complete : forall ns t, stop_at 10 t -> forall u w, separated 10 u w -> (ns = true -> ~ In 95 u) ->
  forall cs dn, frac_loop ns cs dn (u ++ t) = Some (w, t).
Proof.
  intros ns t [S1 S2] u w H.
  assert (D : forall c, digit_in 10 c -> (c =? 95) = false /\ is_digit c = true).
  { intros c Hc. split; [|apply digit_ten; assumption]. apply Z.eqb_neq.
    apply digit_not. eapply digit_char; [|exact Hc]. lia. }
  assert (ST : frac_loop ns true true t = Some ([], t)).
  { destruct t as [|c t]; [cbn; rewrite andb_false_r; reflexivity|]. cbn [begins] in S1, S2.
    cbn [frac_loop]. rewrite Z.eqb_sym in S2. rewrite S2, andb_false_r. cbn [andb]. change (ok_digit 10 c) with (is_digit c) in S1. rewrite S1. cbn [negb].
    rewrite andb_false_r. reflexivity. }
  induction H as [c Hc|c u w Hc H IH|c u w Hc H IH]; intros NS cs dn; destruct (D c Hc) as [D1 D2].
  - cbn [app frac_loop]. rewrite D1, andb_false_r. rewrite D2, ST. reflexivity.
  - cbn [app frac_loop]. rewrite D1, andb_false_r. rewrite D2, IH; [reflexivity|].
    intros Q I. apply (NS Q). right. exact I.
  - destruct ns; [exfalso; apply (NS eq_refl); right; left; reflexivity|].
    cbn [app frac_loop]. rewrite D1, andb_false_r. rewrite D2. cbn [Z.eqb Pos.eqb negb andb].
    rewrite IH; [reflexivity|]. discriminate.
Qed.

Lemma exp_loop_sound : forall ns s cs dn w t, (ns = true -> dn = true -> cs = true) ->
  exp_loop ns cs dn s = Some (w, t) ->
  begins is_digit t = false /\ exists u, s = u ++ t /\ tail 10 (dn && cs) cs u w.
Proof.
  intros ns. induction s as [|c s IH]; intros cs dn w t INV E.
  - cbn in E. destruct dn; [|discriminate]. cbn in E. destruct (negb ns && negb cs) eqn:Q; [discriminate|]. injection E as <- <-.
    split; [reflexivity|]. exists []. split; [reflexivity|]. right. left. split; [|auto].
    destruct cs, ns; cbn in *; auto; try discriminate.
  - cbn [exp_loop] in E. destruct (negb ns && cs && (c =? 95)) eqn:U.
    + apply andb_prop in U. destruct U as [U C]. apply andb_prop in U. destruct U as [NS ->].
      apply Z.eqb_eq in C. subst c.
      apply IH in E; [|intros Q; subst ns; discriminate].
      destruct E as (B & u & -> & T). split; [exact B|]. exists (95 :: u). split; [reflexivity|]. rewrite andb_false_r in T.
      destruct T as [T|[(? & _)|(? & _)]]; [|discriminate..]. right. right. split; [reflexivity|]. exists u. auto.
    + destruct (is_digit c) eqn:OK.
      * destruct (exp_loop ns true true s) as [[w' t']|] eqn:G; [|discriminate].
        injection E as <- <-. apply IH in G; [|auto..]. destruct G as (B & u & -> & T).
        split; [exact B|]. exists (c :: u). split; [reflexivity|].
        apply tail_weak. apply tail_step; [|exact T]. apply digit_ten; assumption.
      * destruct dn; [|discriminate]. cbn [negb] in E. destruct (negb ns && negb cs) eqn:Q; [discriminate|]. injection E as <- <-.
        split; [exact OK|]. exists []. split; [reflexivity|]. right. left. split; [|auto].
        destruct cs, ns; cbn in *; auto; try discriminate.
Qed.

Lemma exp_loop_complete : forall ns t, stop_at 10 t -> forall u w, separated 10 u w -> (ns = true -> ~ In 95 u) ->
  forall cs dn, exp_loop ns cs dn (u ++ t) = Some (w, t).
Proof.
  intros ns t [S1 S2] u w H.
  assert (D : forall c, digit_in 10 c -> (c =? 95) = false /\ is_digit c = true).
  { intros c Hc. split; [|apply digit_ten; assumption]. apply Z.eqb_neq.
    apply digit_not. eapply digit_char; [|exact Hc]. lia. }
  assert (ST : exp_loop ns true true t = Some ([], t)).
  { destruct t as [|c t]; [cbn; rewrite andb_false_r; reflexivity|]. cbn [begins] in S1, S2.
    cbn [exp_loop]. rewrite Z.eqb_sym in S2. rewrite S2, andb_false_r. cbn [andb]. change (ok_digit 10 c) with (is_digit c) in S1. rewrite S1. cbn [negb].
    rewrite andb_false_r. reflexivity. }
  induction H as [c Hc|c u w Hc H IH|c u w Hc H IH]; intros NS cs dn; destruct (D c Hc) as [D1 D2].
  - cbn [app exp_loop]. rewrite D1, andb_false_r. rewrite D2, ST. reflexivity.
  - cbn [app exp_loop]. rewrite D1, andb_false_r. rewrite D2, IH; [reflexivity|].
    intros Q I. apply (NS Q). right. exact I.
  - destruct ns; [exfalso; apply (NS eq_refl); right; left; reflexivity|].
    cbn [app exp_loop]. rewrite D1, andb_false_r. rewrite D2. cbn [Z.eqb Pos.eqb negb andb].
    rewrite IH; [reflexivity|]. discriminate.
Qed.

(** The legacy loop: octal digits, or decimal ones *)
Lemma legacy_loop : forall ns w t cs dn, digits 10 w -> begins is_digit t = false -> (dn = true \/ w <> []) ->
  ns = true ->
  (digits 8 w -> begins (fun c => (c =? 46) || exp_head c) t = false ->
     int_loop ns true 8 cs dn (w ++ t) = Some (8, w, t)) /\
  (~ digits 8 w -> int_loop ns true 8 cs dn (w ++ t) = Some (10, w, t)).
Proof.
  intros ns w t cs dn HW HT HD ->. revert cs dn HD. induction HW as [|c w Hc HW IH]; intros cs dn HD.
  - split; [|intros N; exfalso; apply N; constructor]. intros _ B. destruct HD as [-> | ?]; [|contradiction].
    cbn [app]. destruct t as [|c t]; [reflexivity|]. cbn [begins] in HT, B. cbn [int_loop negb andb].
    assert (O : ok_digit 8 c = false).
    { change (is_octal c = false). unfold is_octal. unfold LexNumModel.is_digit in HT. lia. }
    rewrite O, HT. unfold exp_head in B. cbn [Z.eqb Pos.eqb andb orb]. rewrite orb_assoc in B. rewrite B. reflexivity.
  - cbn [app int_loop negb andb]. destruct (ok_digit 8 c) eqn:O.
    + destruct (IH true true (or_introl eq_refl)) as [I1 I2].
      assert (D8 : digit_in 8 c) by (apply digit_base; auto).
      split.
      * intros D B. inversion D; subst. rewrite I1 by assumption. reflexivity.
      * intros N. rewrite I2; [reflexivity|]. intros D. apply N. constructor; assumption.
    + assert (N8 : ~ digit_in 8 c) by (intros D; apply digit_base in D; [congruence|auto]).
      split; [intros D; inversion D; contradiction|]. intros _.
      cbn [Z.eqb Pos.eqb andb]. apply digit_ten in Hc. rewrite Hc. cbn [orb].
      rewrite (int_loop_span true 10 eq_refl (w ++ t) true true).
      rewrite (span_app (ok_digit 10) w t).
      2:{ apply digits_span; [lia|exact HW]. }
      2:{ exact HT. }
      reflexivity.
Qed.

(** ** Fraction and exponent *)
Lemma frac_sound : forall ns s w f r, fraction_part ns s = Some (w, f, r) ->
  (f = false /\ w = [] /\ r = s /\ begins (Z.eqb 46) s = false) \/
  (f = true /\ exists u fw, s = 46 :: u ++ r /\ w = 46 :: fw /\ source_frac u fw /\ begins is_digit r = false).
Proof.
  intros ns s w f r E. unfold fraction_part in E. destruct s as [|c s]; [injection E as <- <- <-; left; auto|].
  destruct (Z.eqb_spec c 46) as [->|N].
  - destruct (frac_loop ns false false s) as [[w' t']|] eqn:G; [|discriminate]. injection E as <- <- <-.
    apply frac_loop_sound in G; [|discriminate..]. destruct G as (B & u & -> & T). right. split; [reflexivity|].
    exists u, w'. split; [reflexivity|]. split; [reflexivity|]. split; [|exact B].
    destruct T as [T|[(_ & -> & ->)|(? & _)]]; [right; exact T|left; auto|discriminate].
  - injection E as <- <- <-. left. split; [reflexivity|]. split; [reflexivity|]. split; [reflexivity|].
    apply Z.eqb_neq. auto.
Qed.

Lemma exp_part_sound : forall ns s w f r, exponent_part ns s = Some (w, f, r) ->
  (f = false /\ w = [] /\ r = s /\ begins exp_head s = false) \/
  (f = true /\ exists u e, s = u ++ r /\ source_exp u e /\ exponent_of w e /\ w <> [] /\ len w <= len u /\ begins is_digit r = false).
Proof.
  intros ns s w f r E. unfold exponent_part in E. destruct s as [|c s]; [injection E as <- <- <-; left; auto|].
  destruct ((c =? 101) || (c =? 69)) eqn:C.
  - right. assert (HC : c = 101 \/ c = 69) by lia.
    assert (SG : exists sg neg t, sign_text sg neg /\ s = sg ++ t /\
       (match s with
        | [] => ([], s) | d :: u => if (d =? 43) || (d =? 45) then ([d], u) else ([], s) end) = (sg, t)).
    { destruct s as [|d u]; [exists [], false, []; repeat split; constructor|].
      destruct (Z.eqb_spec d 43) as [->|]; [exists [43], false, u; repeat split; constructor|].
      destruct (Z.eqb_spec d 45) as [->|]; [exists [45], true, u; repeat split; constructor|].
      exists [], false, (d :: u). repeat split; constructor. }
    destruct SG as (sg & neg & t & SG & -> & Q). rewrite Q in E.
    destruct (exp_loop ns false false t) as [[w' u']|] eqn:G; [|discriminate]. injection E as <- <- <-.
    apply exp_loop_sound in G; [|discriminate..]. destruct G as (B & u & -> & T).
    destruct T as [T|[(? & _)|(? & _)]]; [|discriminate..].
    split; [reflexivity|]. exists (c :: sg ++ u), (if neg then - number_of 10 w' else number_of 10 w').
    split; [cbn [app]; rewrite <- app_assoc; reflexivity|]. split; [econstructor; eassumption|].
    destruct (separated_digits _ _ _ T) as [DW NW].
    split; [apply exp_some; assumption|]. split; [discriminate|]. split; [|exact B].
    pose proof (separated_len _ _ _ T) as L. unfold len in *. cbn [length]. rewrite !app_length. lia.
  - injection E as <- <- <-. left. split; [reflexivity|]. split; [reflexivity|]. split; [reflexivity|]. exact C.
Qed.

Lemma frac_complete : forall ns u w t, source_frac u w -> stop_at 10 t -> (ns = true -> ~ In 95 u) ->
  fraction_part ns (46 :: u ++ t) = Some (46 :: w, true, t).
Proof.
  intros ns u w t [[-> ->]|H] S N; cbn [app fraction_part Z.eqb Pos.eqb].
  - destruct S as [S1 S2]. destruct t as [|c t]; [cbn; rewrite andb_false_r; reflexivity|].
    cbn [begins] in *. cbn [frac_loop]. change (ok_digit 10 c) with (is_digit c) in S1. rewrite S1, !andb_false_r. reflexivity.
  - rewrite (frac_loop_complete ns t S u w H N). reflexivity.
Qed.

Lemma exp_part_complete : forall ns u e t, source_exp u e -> stop_at 10 t -> (ns = true -> ~ In 95 u) ->
  (u = [] -> begins exp_head t = false) ->
  exists w, exponent_part ns (u ++ t) = Some (w, match u with [] => false | _ => true end, t) /\
    exponent_of w e /\ len w <= len u.
Proof.
  intros ns u e t H S N T. inversion H as [|c sg neg u' w' HC SG SP]; subst.
  - exists []. split; [|split; [constructor|reflexivity]]. cbn [app]. specialize (T eq_refl).
    destruct t as [|c t]; [reflexivity|]. cbn [begins] in T. unfold exp_head in T.
    cbn [exponent_part]. rewrite T. reflexivity.
  - exists (c :: sg ++ w'). destruct (separated_digits _ _ _ SP) as [DW NW].
    split; [|split; [apply exp_some; assumption|]].
    + cbn [app]. unfold exponent_part. replace ((c =? 101) || (c =? 69)) with true by lia.
      rewrite <- app_assoc.
      assert (Q : (match sg ++ u' ++ t with
                   | [] => ([], sg ++ u' ++ t)
                   | d :: v => if (d =? 43) || (d =? 45) then ([d], v) else ([], sg ++ u' ++ t) end) = (sg, u' ++ t)).
      { inversion SG; subst; [|reflexivity..]. cbn [app].
        inversion SP as [d Hd|d ? ? Hd|d ? ? Hd]; subst; cbn [app];
        (assert (d <> 43 /\ d <> 45) as [X Y] by
           (pose proof (digit_not d ltac:(eapply digit_char; [|exact Hd]; lia)); tauto));
        replace ((d =? 43) || (d =? 45)) with false by lia; reflexivity. }
      rewrite Q. rewrite (exp_loop_complete ns t S u' w' SP); [reflexivity|].
      intros Q' I. apply (N Q'). right. apply in_or_app. right. exact I.
    + pose proof (separated_len _ _ _ SP) as L. unfold len in *. cbn [length]. rewrite !app_length. lia.
Qed.
