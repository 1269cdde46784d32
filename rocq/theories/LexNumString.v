(** * StringToNumber and StringToBigInt: proofs *)
Require Import ZArith List Bool Lia QArith.
From Verif Require Import DtoaModel DtoaSpec LexNumModel LexNumSpec LexNumRound LexNumScan.
From Verif Require StrModel StrSpec BigModel BigSpec BigProofs.
Import ListNotations.
Local Open Scope Z_scope.

(** ** The loops without separators *)

Lemma int_loop_span : forall legacy base, (base =? 8) && legacy = false -> forall s cs dn,
  int_loop true legacy base cs dn s =
  let '(w, r) := span (ok_digit base) s in
  match dn, w with false, [] => None | _, _ => Some (base, w, r) end.
Proof.
  intros legacy base H. induction s as [|c s IH]; intros cs dn.
  - cbn. destruct dn; reflexivity.
  - cbn [int_loop negb andb span]. rewrite H. cbn [andb].
    destruct (ok_digit base c) eqn:D.
    + rewrite IH. destruct (span (ok_digit base) s) as [w r]. destruct dn; reflexivity.
    + destruct dn; reflexivity.
Qed.

Lemma frac_loop_span : forall s cs dn, frac_loop true cs dn s = Some (span is_digit s).
Proof.
  induction s as [|c s IH]; intros cs dn; [reflexivity|].
  cbn [frac_loop negb andb span]. destruct (is_digit c) eqn:D; [|reflexivity].
  rewrite IH. destruct (span is_digit s). reflexivity.
Qed.

Lemma exp_loop_span : forall s cs dn, exp_loop true cs dn s =
  let '(w, r) := span is_digit s in
  match dn, w with false, [] => None | _, _ => Some (w, r) end.
Proof.
  induction s as [|c s IH]; intros cs dn.
  - destruct dn; reflexivity.
  - cbn [exp_loop negb andb span]. destruct (is_digit c) eqn:D.
    + rewrite IH. destruct (span is_digit s) as [w r]. destruct dn; reflexivity.
    + destruct dn; reflexivity.
Qed.

(** Fraction and exponent: what they read and when they stop. *)
Lemma exponent_part_sound : forall s w f r, exponent_part true s = Some (w, f, r) ->
  s = w ++ r /\ (exists e, exponent_of w e) /\ (begins is_digit s = false -> begins is_digit r = false) /\
  (f = false -> w = []).
Proof.
  intros s w f r E. unfold exponent_part in E. destruct s as [|c s].
  - injection E as <- <- <-. repeat split; auto. exists 0. constructor.
  - destruct ((c =? 101) || (c =? 69)) eqn:C.
    + assert (HC : c = 101 \/ c = 69).
      { apply orb_prop in C. destruct C as [C|C]; apply Z.eqb_eq in C; auto. }
      set (P := match s with
                | [] => ([], s) | d :: u => if (d =? 43) || (d =? 45) then ([d], u) else ([], s) end) in E.
      assert (HP : exists neg, sign_text (fst P) neg /\ s = fst P ++ snd P).
      { unfold P. destruct s as [|d u]; [exists false; split; [constructor|reflexivity]|].
        destruct (Z.eqb_spec d 43) as [->|]; [exists false; split; [constructor|reflexivity]|].
        destruct (Z.eqb_spec d 45) as [->|]; [exists true; split; [constructor|reflexivity]|].
        exists false; split; [constructor|reflexivity]. }
      destruct P as [sg t]. cbn [fst snd] in HP. destruct HP as (neg & SG & ->).
      rewrite exp_loop_span in E. destruct (span is_digit t) as [x u] eqn:SP.
      destruct (span_spec _ _ _ _ SP) as (-> & FX & BX).
      destruct x as [|d x]; [discriminate|]. injection E as <- <- <-.
      split; [cbn [app]; rewrite <- app_assoc; reflexivity|]. split; [|split; [intros _; exact BX|discriminate]].
      eexists. apply exp_some; [exact HC|exact SG|discriminate|apply digits_ten; exact FX].
    + injection E as <- <- <-. repeat split; auto. exists 0. constructor.
Qed.

Lemma exponent_part_complete : forall x e t, exponent_of x e -> begins is_digit t = false ->
  (x = [] -> begins exp_head t = false) ->
  exponent_part true (x ++ t) = Some (x, match x with [] => false | _ => true end, t).
Proof.
  intros x e t X T N. inversion X; subst.
  - specialize (N eq_refl). destruct t as [|c t]; [reflexivity|]. cbn [app exponent_part].
    unfold exp_head in N. cbn [begins] in N. rewrite N. reflexivity.
  - cbn [app exponent_part]. rewrite <- app_assoc.
    replace ((c =? 101) || (c =? 69)) with true by (destruct H as [-> | ->]; reflexivity).
    destruct w as [|d w]; [contradiction|].
    assert (S : span is_digit ((d :: w) ++ t) = (d :: w, t)).
    { apply span_app; [|exact T]. apply digits_ten. assumption. }
    assert (D : is_digit d = true) by (apply digit_ten; inversion H2; assumption).
    inversion H0; subst; cbn [app]; cbn [Z.eqb Pos.eqb orb].
    + replace ((d =? 43) || (d =? 45)) with false.
      2:{ revert D. unfold LexNumModel.is_digit. chars. }
      rewrite exp_loop_span. cbn [app] in S. rewrite S. reflexivity.
    + rewrite exp_loop_span. cbn [app] in S. rewrite S. reflexivity.
    + rewrite exp_loop_span. cbn [app] in S. rewrite S. reflexivity.
Qed.

(** ** lex_number in a string *)
Section Words.
Variable id_start : Z -> bool.

(** The number that int_end makes of a decimal text. *)
Lemma int_end_sound : forall legacy i s dec v r,
  digits 10 i -> (i = [] -> exists c t, s = 46 :: c :: t /\ is_digit c = true) ->
  begins is_digit s = false ->
  int_end id_start number_mode true legacy 10 i s = Some (dec, VNum v, r) ->
  dec = true /\ exists w D E, i ++ s = w ++ r /\ decimal_of w D E /\
    (len w <= 19000 -> v = dec_double false D E).
Proof.
  intros legacy i s dec v r DI NI BS E. unfold int_end in E. cbn [Z.eqb Pos.eqb andb big_flag number_mode negb] in E.
  assert (FP : exists w1 f1 s1, fraction_part true s = Some (w1, f1, s1) /\ s = w1 ++ s1 /\
    begins is_digit s1 = false /\
    ((f1 = false /\ w1 = []) \/ (f1 = true /\ exists f, w1 = 46 :: f /\ digits 10 f /\ (i = [] -> f <> [])))).
  { unfold fraction_part. destruct s as [|c t].
    - exists [], false, []. repeat split; auto.
    - destruct (Z.eqb_spec c 46) as [->|N].
      + rewrite frac_loop_span. destruct (span is_digit t) as [f u] eqn:SP.
        destruct (span_spec _ _ _ _ SP) as (-> & FF & BF).
        exists (46 :: f), true, u. split; [reflexivity|]. split; [reflexivity|]. split; [exact BF|].
        right. split; [reflexivity|]. exists f. split; [reflexivity|]. split; [apply digits_ten; exact FF|].
        intros I0 F0. destruct (NI I0) as (c & t & Q & C). subst f. cbn [app] in Q.
        injection Q as ->. cbn [begins] in BF. congruence.
      + exists [], false, (c :: t). split; [reflexivity|]. split; [reflexivity|]. split; [exact BS|].
        left. split; reflexivity. }
  destruct FP as (w1 & f1 & s1 & FP & ES & B1 & K). rewrite FP in E.
  destruct (exponent_part true s1) as [[[w2 f2] s2]|] eqn:EP; [|discriminate].
  destruct (exponent_part_sound _ _ _ _ EP) as (ES2 & (e & EX) & B2 & F2). specialize (B2 B1).
  assert (DW : exists D E0, decimal_of (i ++ w1 ++ w2) D E0).
  { destruct K as [(-> & ->)|(-> & f & -> & DF & NF)].
    - exists (number_of 10 i), e. cbn [app]. apply dec_whole; [|exact DI|exact EX].
      intros I0. destruct (NI I0) as (c & t & Q & C). rewrite Q in FP. unfold fraction_part in FP.
      cbn [Z.eqb Pos.eqb] in FP. rewrite frac_loop_span in FP. destruct (span is_digit (c :: t)). discriminate FP.
    - exists (number_of 10 (i ++ f)), (e - len f).
      apply (dec_point i f w2 e); [|exact DI|exact DF|exact EX].
      intros Q. apply app_eq_nil in Q. destruct Q as [Q1 Q2]. exact (NF Q1 Q2). }
  destruct DW as (D & E0 & DW).
  destruct (match s2 with
            | [] => (false, s2)
            | c :: r0 => if (c =? 110) && true && negb legacy && negb (f1 || f2) then (true, r0) else (false, s2)
            end) as [big s3] eqn:SB.
  destruct (begins is_digit s3 || begins id_start s3) eqn:FO; [discriminate|].
  cbn [strict number_mode andb] in E.
  destruct big; [cbn [orb] in E; discriminate|].
  assert (s3 = s2).
  { destruct s2 as [|c r0]; [injection SB as <-; reflexivity|].
    destruct ((c =? 110) && true && negb legacy && negb (f1 || f2)); [discriminate|injection SB as <-; reflexivity]. }
  subst s3. cbn [orb] in E.
  injection E as <- Ev <-. split; [reflexivity|].
  exists (i ++ w1 ++ w2), D, E0. split; [rewrite ES, ES2, <- !app_assoc; reflexivity|]. split; [exact DW|].
  intros L. destruct (f1 || f2); injection Ev as <-.
  - rewrite <- (app_nil_r (i ++ w1 ++ w2)). rewrite (strtod_decimal _ _ _ [] DW eq_refl L). reflexivity.
  - rewrite <- (app_nil_r (i ++ w1 ++ w2)). rewrite (strtoi_ten _ _ _ [] DW eq_refl L). reflexivity.
Qed.

(** Dispatch on the first characters, in a string. *)
Inductive route (md : mode) (s : list Z) : option (bool * value * list Z) -> Prop :=
| r_dot : forall t, s = 46 :: t -> route md s (int_end id_start md true false 10 [] s)
| r_radix : forall p b t, radix_prefix p b -> s = p ++ t ->
    route md s (number_from id_start md true false b t)
| r_under : forall t, s = 48 :: 95 :: t -> route md s None
| r_dec : forall legacy, (forall p b t, radix_prefix p b -> s <> p ++ t) -> begins (Z.eqb 46) s = false ->
    route md s (number_from id_start md true legacy 10 s).

Lemma dispatch : forall md s, from_string md = true -> route md s (lex_number id_start md s).
Proof.
  intros md s MD. unfold lex_number. rewrite MD. cbn [negb andb].
  destruct s as [|a r].
  - apply r_dec; [|reflexivity]. intros p b t [[_ [-> | ->]]|[[_ [-> | ->]]|[_ [-> | ->]]]]; discriminate.
  - destruct (Z.eqb_spec a 46) as [->|N46]; [eapply r_dot; reflexivity|].
    assert (B46 : begins (Z.eqb 46) (a :: r) = false).
    { change ((46 =? a) = false). apply Z.eqb_neq. auto. }
    destruct (Z.eqb_spec a 48) as [->|N48].
    2:{ apply r_dec; [|exact B46]. intros p b t [[_ [-> | ->]]|[[_ [-> | ->]]|[_ [-> | ->]]]] Q; cbn [app] in Q; congruence. }
    destruct r as [|c t].
    { apply r_dec; [|exact B46]. intros p b t [[_ [-> | ->]]|[[_ [-> | ->]]|[_ [-> | ->]]]] Q; discriminate. }
    destruct ((c =? 98) || (c =? 66)) eqn:C2.
    { apply orb_prop in C2. destruct C2 as [C2|C2]; apply Z.eqb_eq in C2; subst c.
      - apply (r_radix md _ [48; 98] 2 t); [left; auto|reflexivity].
      - apply (r_radix md _ [48; 66] 2 t); [left; auto|reflexivity]. }
    destruct ((c =? 111) || (c =? 79)) eqn:C8.
    { apply orb_prop in C8. destruct C8 as [C8|C8]; apply Z.eqb_eq in C8; subst c.
      - apply (r_radix md _ [48; 111] 8 t); [right; left; auto|reflexivity].
      - apply (r_radix md _ [48; 79] 8 t); [right; left; auto|reflexivity]. }
    destruct ((c =? 120) || (c =? 88)) eqn:C16.
    { apply orb_prop in C16. destruct C16 as [C16|C16]; apply Z.eqb_eq in C16; subst c.
      - apply (r_radix md _ [48; 120] 16 t); [right; right; auto|reflexivity].
      - apply (r_radix md _ [48; 88] 16 t); [right; right; auto|reflexivity]. }
    destruct (Z.eqb_spec c 95) as [->|N95]; [eapply r_under; reflexivity|].
    assert (NR : forall p b t0, radix_prefix p b -> 48 :: c :: t <> p ++ t0).
    { apply orb_false_elim in C2, C8, C16. destruct C2 as [C2 C2'], C8 as [C8 C8'], C16 as [C16 C16'].
      apply Z.eqb_neq in C2, C2', C8, C8', C16, C16'.
      intros p b t0 [[_ [-> | ->]]|[[_ [-> | ->]]|[_ [-> | ->]]]] Q; cbn [app] in Q; injection Q as -> _; lia. }
    destruct ((c =? 56) || (c =? 57)); apply r_dec; assumption.
Qed.

Lemma radix_base : forall p b, radix_prefix p b -> b = 2 \/ b = 8 \/ b = 16.
Proof. intros p b [[-> _]|[[-> _]|[-> _]]]; auto. Qed.

Lemma prefix_head : forall p b, radix_prefix p b -> exists c, p = [48; c].
Proof. intros p b [[_ [-> | ->]]|[[_ [-> | ->]]|[_ [-> | ->]]]]; eexists; reflexivity. Qed.

Lemma strtoi_radix : forall b w, b = 2 \/ b = 8 \/ b = 16 -> w <> [] -> digits b w -> number_of b w <= 2 ^ 53 ->
  fst (strtoi w b) = to_double false (number_of b w) 1.
Proof using. clear.
  intros b w HB NW DW L. unfold strtoi.
  assert (HD : forall c r, w = c :: r -> is_digit c = true \/ (97 <= c <= 102) \/ (65 <= c <= 70)).
  { intros c r ->. inversion DW as [|? ? D1 _]; subst. unfold digit_in, digit_of in D1. unfold LexNumModel.is_digit.
    destruct ((48 <=? c) && (c <=? 57)) eqn:E1; [auto|].
    destruct ((97 <=? c) && (c <=? 122)) eqn:E2; [right; lia|].
    destruct ((65 <=? c) && (c <=? 90)) eqn:E3; [right; lia|]. destruct HB as [->|[->| ->]]; lia. }
  assert (S : snd (span is_c_space w) = w).
  { destruct w as [|c r]; [contradiction|]. cbn [span]. replace (is_c_space c) with false; [reflexivity|].
    specialize (HD c r eq_refl). revert HD. unfold is_c_space, LexNumModel.is_digit.
    chars; intros [?|?]; try discriminate; lia. }
  rewrite S.
  assert (G : (match w with
               | [] => (false, w)
               | c :: r => if c =? 43 then (false, r) else if c =? 45 then (true, r) else (false, w)
               end) = (false, w)).
  { destruct w as [|c r]; [reflexivity|]. specialize (HD c r eq_refl). unfold LexNumModel.is_digit in HD.
    destruct (Z.eqb_spec c 43) as [->|]; [cbn in HD; destruct HD as [?|?]; [discriminate|lia]|].
    destruct (Z.eqb_spec c 45) as [->|]; [cbn in HD; destruct HD as [?|?]; [discriminate|lia]|]. reflexivity. }
  rewrite G.
  assert (P : (if (b =? 0) || (b =? 16) then
      match w with
      | a :: b0 :: r => if (a =? 48) && ((b0 =? 120) || (b0 =? 88)) then (16, r) else (b, w)
      | _ => (b, w)
      end
    else (b, w)) = (b, w)).
  { destruct ((b =? 0) || (b =? 16)); [|reflexivity]. destruct w as [|a [|c r]]; [reflexivity..|].
    replace ((a =? 48) && ((c =? 120) || (c =? 88))) with false; [reflexivity|].
    inversion DW as [|? ? _ D1]; subst. inversion D1 as [|? ? D2 _]; subst. unfold digit_in in D2.
    destruct (Z.eqb_spec c 120) as [->|]; [exfalso; change (33 < b) in D2; lia|].
    destruct (Z.eqb_spec c 88) as [->|]; [exfalso; change (33 < b) in D2; lia|]. rewrite andb_false_r. reflexivity. }
  rewrite P. replace (b =? 0) with false by (symmetry; apply Z.eqb_neq; lia).
  replace (b =? 10) with false by (symmetry; apply Z.eqb_neq; lia).
  pose proof (strtoi_loop_ok b ltac:(lia) ltac:(lia) w [] []) as Q.
  rewrite app_nil_r in Q. cbn [app] in Q. change (number_of b []) with 0 in Q.
  rewrite Q; [reflexivity|constructor|exact DW|reflexivity|exact L].
Qed.

Definition follow_ok (r : list Z) : Prop := begins is_digit r = false /\ begins id_start r = false.

(** What a number token of a string is. *)
Lemma lex_sound : forall s dec v r,
  (exists c t, s = c :: t /\ is_digit c = true) \/ (exists c t, s = 46 :: c :: t /\ is_digit c = true) ->
  lex_number id_start number_mode s = Some (dec, VNum v, r) ->
  (dec = true /\ exists w D E, s = w ++ r /\ decimal_of w D E /\ (len w <= 19000 -> v = dec_double false D E)) \/
  (dec = false /\ exists p b w, s = p ++ w ++ r /\ radix_prefix p b /\ w <> [] /\ digits b w /\
     v = fst (strtoi w b)).
Proof.
  intros s dec v r HS E. destruct (dispatch number_mode s eq_refl) as [t ES|p b t RP ES|t ES|legacy NR BD].
  - left. destruct HS as [(c & u & Q & C)|(c & u & Q & C)]; [rewrite ES in Q; injection Q as <- <-; discriminate|].
    eapply (int_end_sound false [] s) in E; [exact E|constructor| |].
    + intros _. exists c, u. auto.
    + rewrite ES. reflexivity.
  - right. unfold number_from in E.
    rewrite int_loop_span in E by apply andb_false_r.
    destruct (span (ok_digit b) t) as [w u] eqn:SP. destruct (span_spec _ _ _ _ SP) as (-> & FW & BW).
    destruct w as [|c w]; [discriminate|].
    pose proof (radix_base _ _ RP) as RB.
    unfold int_end in E. replace (b =? 10) with false in E by (symmetry; apply Z.eqb_neq; lia).
    cbn [andb] in E.
    destruct (match u with
              | [] => (false, u)
              | c0 :: r0 => if (c0 =? 110) && negb (big_flag number_mode) && negb false && negb false
                            then (true, r0) else (false, u) end) as [big u'] eqn:SB.
    destruct (begins is_digit u' || begins id_start u') eqn:FO; [discriminate|].
    destruct big; [discriminate|].
    assert (u' = u).
    { destruct u as [|c0 r0]; [injection SB as <-; reflexivity|].
      destruct ((c0 =? 110) && negb (big_flag number_mode) && negb false && negb false); [discriminate|injection SB as <-; reflexivity]. }
    subst u'. cbn [orb big_flag number_mode] in E. injection E as <- <- <-.
    split; [reflexivity|]. exists p, b, (c :: w). split; [exact ES|]. split; [exact RP|].
    split; [discriminate|]. split; [|reflexivity].
    apply digits_span; [lia|exact FW].
  - discriminate.
  - left. unfold number_from in E. rewrite int_loop_span in E by reflexivity.
    destruct (span (ok_digit 10) s) as [w u] eqn:SP. destruct (span_spec _ _ _ _ SP) as (-> & FW & BW).
    destruct w as [|c w]; [discriminate|].
    eapply (int_end_sound legacy (c :: w) u) in E; [exact E| |discriminate|exact BW].
    apply digits_span; [lia|exact FW].
Qed.

(** The other direction. *)
Definition quiet (r : list Z) : Prop :=
  no_more r /\ begins (Z.eqb 110) r = false /\ begins (Z.eqb 95) r = false /\ begins id_start r = false /\
  begins (fun c => digit_of c <? 36) r = false.

Lemma int_end_complete : forall legacy i w D E r,
  decimal_of (i ++ w) D E -> (exists f, (w = [] \/ exists x e, w = f ++ x /\ exponent_of x e /\
     (f = [] \/ exists f', f = 46 :: f' /\ digits 10 f'))) ->
  len (i ++ w) <= 19000 -> quiet r ->
  int_end id_start number_mode true legacy 10 i (w ++ r) = Some (true, VNum (dec_double false D E), r).
Proof.
  intros legacy i w D E r H SH L (NM & N110 & _ & NI & _).
  destruct (no_more_parts _ NM) as (M1 & M2 & M3).
  assert (SH' : exists f x e, w = f ++ x /\ exponent_of x e /\ (f = [] \/ exists f', f = 46 :: f' /\ digits 10 f')).
  { destruct SH as (f & [->|(x & e & -> & X & F)]).
    - exists [], [], 0. repeat split; [constructor|auto].
    - exists f, x, e. auto. }
  clear SH. destruct SH' as (f & x & e & -> & X & F).
  unfold int_end. cbn [Z.eqb Pos.eqb andb big_flag number_mode negb].
  assert (EP : exponent_part true (x ++ r) = Some (x, match x with [] => false | _ => true end, r)).
  { eapply exponent_part_complete; eauto. }
  assert (FP : fraction_part true ((f ++ x) ++ r) =
               Some (f, match f with [] => false | _ => true end, x ++ r)).
  { rewrite <- app_assoc. destruct F as [->|(f' & -> & DF)].
    - cbn [app]. pose proof (exp_begins_dot _ _ _ X M2) as Q. unfold fraction_part.
      destruct (x ++ r) as [|c t]; [reflexivity|].
      change ((46 =? c) = false) in Q. rewrite Z.eqb_sym in Q. rewrite Q. reflexivity.
    - cbn [app fraction_part Z.eqb Pos.eqb]. rewrite frac_loop_span.
      rewrite span_app; [reflexivity|apply digits_ten; exact DF|eapply exp_begins; eassumption]. }
  rewrite FP, EP.
  assert (SB : forall fl, (match r with
            | [] => (false, r)
            | c :: r0 => if (c =? 110) && true && negb legacy && negb fl then (true, r0) else (false, r)
            end) = (false, r)).
  { intros fl. destruct r as [|c r0]; [reflexivity|]. change ((110 =? c) = false) in N110.
    rewrite Z.eqb_sym in N110. rewrite N110. reflexivity. }
  rewrite SB, M1, NI. cbn [orb andb strict number_mode].
  set (fl := match f with [] => false | _ => true end || match x with [] => false | _ => true end).
  assert (V : (if fl then VNum (fst (strtod (i ++ f ++ x))) else VNum (fst (strtoi (i ++ f ++ x) 10))) =
              VNum (dec_double false D E)).
  { destruct fl.
    - rewrite <- (app_nil_r (i ++ f ++ x)). rewrite (strtod_decimal _ _ _ [] H eq_refl L). reflexivity.
    - rewrite <- (app_nil_r (i ++ f ++ x)). rewrite (strtoi_ten _ _ _ [] H eq_refl L). reflexivity. }
  rewrite V. reflexivity.
Qed.

Lemma lex_decimal : forall w D E r, decimal_of w D E -> len w <= 19000 -> quiet r ->
  lex_number id_start number_mode (w ++ r) = Some (true, VNum (dec_double false D E), r).
Proof.
  intros w D E r H L Qr. pose proof Qr as (NM & N110 & N95 & NI & ND).
  destruct (no_more_parts _ NM) as (M1 & M2 & M3).
  assert (SH : exists i y, w = i ++ y /\ digits 10 i /\ (i = [] -> exists c t, y = 46 :: c :: t /\ is_digit c = true) /\
     begins is_digit (y ++ r) = false /\
     exists f, (y = [] \/ exists x e, y = f ++ x /\ exponent_of x e /\
     (f = [] \/ exists f', f = 46 :: f' /\ digits 10 f'))).
  { inversion H; subst.
    - exists i, x. split; [reflexivity|]. split; [assumption|]. split; [contradiction|].
      split; [eapply exp_begins; eassumption|]. exists []. right. exists x, E. auto.
    - exists i, (46 :: f ++ x). split; [reflexivity|]. split; [assumption|]. split.
      + intros ->. destruct f as [|c f]; [contradiction|]. exists c, (f ++ x). split; [reflexivity|].
        apply digit_ten. inversion H2; assumption.
      + split; [reflexivity|]. exists (46 :: f). right. exists x, e. split; [reflexivity|]. split; [assumption|].
        right. exists f. auto. }
  destruct SH as (i & y & -> & DI & NI0 & BY & SH).
  rewrite <- app_assoc.
  destruct (dispatch number_mode (i ++ y ++ r) eq_refl) as [t ES|p b t RP ES|t ES|legacy NR BD].
  - assert (i = []).
    { destruct i as [|c i]; [reflexivity|]. injection ES as -> _. inversion DI as [|? ? D1 _].
      apply digit_ten in D1. discriminate. }
    subst i. cbn [app] in *. apply (int_end_complete false [] y); assumption.
  - exfalso. destruct i as [|c i].
    + destruct (NI0 eq_refl) as (c & t' & -> & _). destruct (prefix_head _ _ RP) as (c' & ->). discriminate.
    + destruct i as [|c2 i].
      * (* a single 0 *) destruct (prefix_head _ _ RP) as (c' & ->). cbn [app] in ES. injection ES as -> ES.
        destruct SH as (f & [->|(x & e & -> & X & F)]).
        { cbn [app] in ES. subst r. cbn [begins] in ND.
          destruct RP as [[_ [Q|Q]]|[[_ [Q|Q]]|[_ [Q|Q]]]]; injection Q as ->; discriminate. }
        destruct F as [->|(f' & -> & _)].
        { inversion X; subst; cbn [app] in ES.
          - subst r. cbn [begins] in ND. destruct RP as [[_ [Q|Q]]|[[_ [Q|Q]]|[_ [Q|Q]]]]; injection Q as ->; discriminate.
          - injection ES as -> _. destruct RP as [[_ [Q|Q]]|[[_ [Q|Q]]|[_ [Q|Q]]]]; injection Q as ->; lia. }
        { cbn [app] in ES. injection ES as <- _. destruct RP as [[_ [Q|Q]]|[[_ [Q|Q]]|[_ [Q|Q]]]]; discriminate. }
      * destruct (prefix_head _ _ RP) as (c' & ->). cbn [app] in ES. injection ES as -> -> _.
        inversion DI as [|? ? _ D1]. inversion D1 as [|? ? D2 _]. subst. apply digit_ten in D2.
        destruct RP as [[_ [Q|Q]]|[[_ [Q|Q]]|[_ [Q|Q]]]]; injection Q as ->; discriminate.
  - exfalso. destruct i as [|c i].
    + destruct (NI0 eq_refl) as (c & t' & -> & _). discriminate.
    + destruct i as [|c2 i].
      * cbn [app] in ES. injection ES as -> ES.
        destruct SH as (f & [->|(x & e & -> & X & F)]); [cbn [app] in ES; subst r; discriminate|].
        destruct F as [->|(f' & -> & _)]; [|discriminate].
        inversion X; subst; cbn [app] in ES; [subst r; discriminate|]. injection ES as -> _. lia.
      * cbn [app] in ES. injection ES as -> -> _.
        inversion DI as [|? ? _ D1]. inversion D1 as [|? ? D2 _]. subst. apply digit_ten in D2. discriminate.
  - unfold number_from. rewrite int_loop_span by reflexivity.
    rewrite (span_app (ok_digit 10) i (y ++ r)) by (first [exact BY | apply digits_span; [lia|exact DI]]).
    destruct i as [|c i].
    + exfalso. destruct (NI0 eq_refl) as (c & t' & -> & _). discriminate.
    + apply int_end_complete; assumption.
Qed.

Lemma lex_radix : forall p b w r, radix_prefix p b -> w <> [] -> digits b w -> quiet r ->
  lex_number id_start number_mode (p ++ w ++ r) = Some (false, VNum (fst (strtoi w b)), r).
Proof.
  intros p b w r RP NW DW (NM & N110 & N95 & NI & ND).
  destruct (no_more_parts _ NM) as (M1 & M2 & M3).
  assert (U : forall p1 b1 t1, radix_prefix p1 b1 -> p ++ w ++ r = p1 ++ t1 -> b1 = b /\ t1 = w ++ r).
  { intros p1 b1 t1 [[-> [-> | ->]]|[[-> [-> | ->]]|[-> [-> | ->]]]];
    destruct RP as [[-> [-> | ->]]|[[-> [-> | ->]]|[-> [-> | ->]]]]; cbn [app]; intros Q; injection Q as Q;
    try discriminate; auto. }
  destruct (dispatch number_mode (p ++ w ++ r) eq_refl) as [t ES|p1 b1 t RP1 ES|t ES|legacy NR BD].
  - destruct (prefix_head _ _ RP) as (c & ->). discriminate.
  - destruct (U _ _ _ RP1 ES) as [-> ->]. pose proof (radix_base _ _ RP) as RB.
    unfold number_from. rewrite int_loop_span by apply andb_false_r.
    rewrite (span_app (ok_digit b) w r).
    2:{ apply digits_span; [lia|exact DW]. }
    2:{ destruct r as [|c r]; [reflexivity|]. cbn [begins] in ND |- *.
        destruct (ok_digit b c) eqn:OK; [|reflexivity]. apply digit_base in OK; [|lia]. unfold digit_in in OK.
        apply Z.ltb_ge in ND. lia. }
    destruct w as [|c w]; [contradiction|].
    unfold int_end. replace (b =? 10) with false by (symmetry; apply Z.eqb_neq; lia). cbn [andb].
    assert (SB : (match r with
            | [] => (false, r)
            | c0 :: r0 => if (c0 =? 110) && negb (big_flag number_mode) && negb false && negb false
                          then (true, r0) else (false, r) end) = (false, r)).
    { destruct r as [|c0 r0]; [reflexivity|]. change ((110 =? c0) = false) in N110.
      rewrite Z.eqb_sym in N110. rewrite N110. reflexivity. }
    rewrite SB, M1, NI. reflexivity.
  - exfalso. destruct (prefix_head _ _ RP) as (c & ->). cbn [app] in ES. injection ES as -> _.
    destruct RP as [[_ [Q|Q]]|[[_ [Q|Q]]|[_ [Q|Q]]]]; discriminate.
  - exfalso. exact (NR _ _ _ RP eq_refl).
Qed.
End Words.
