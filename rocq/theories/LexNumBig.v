(** * StringToBigInt *)
Require Import ZArith List Bool Lia.
From Verif Require Import DtoaModel DtoaSpec LexNumModel LexNumSpec LexNumScan LexNumString LexNumConvert.
From Verif Require StrModel StrSpec BigModel BigSpec BigProofs BigTextProofs.
Import ListNotations.
Local Open Scope Z_scope.

Lemma hex_digit : forall b c, 2 <= b <= 16 -> digit_in b c -> hex_value c = digit_of c /\ 0 <= digit_of c < b.
Proof.
  intros b c B H. unfold digit_in in H. revert H. unfold hex_value, digit_of.
  destruct ((48 <=? c) && (c <=? 57)) eqn:E1; destruct ((97 <=? c) && (c <=? 122)) eqn:E2;
  destruct ((65 <=? c) && (c <=? 90)) eqn:E3; destruct ((97 <=? c) && (c <=? 102)) eqn:E4;
  destruct ((65 <=? c) && (c <=? 70)) eqn:E5; lia.
Qed.

(** The integer with the digits of a text *)
Definition big_of (b : Z) (w : list Z) : BigModel.bi := BigModel.from_digits (map hex_value w) b.

Lemma big_of_spec : forall b w, 2 <= b <= 16 -> digits b w ->
  BigSpec.normal (big_of b w) /\ BigSpec.value (big_of b w) = number_of b w.
Proof.
  intros b w B D. unfold big_of.
  assert (E : map hex_value w = map digit_of w /\ BigSpec.digits_ok (map hex_value w) b).
  { induction D as [|c w Hc D [IH1 IH2]]; [split; [reflexivity|constructor]|].
    destruct (hex_digit b c B Hc) as [Q R]. cbn [map]. split; [congruence|]. constructor; [lia|exact IH2]. }
  destruct E as [E1 E2]. destruct (BigTextProofs.from_digits_spec (map hex_value w) b ltac:(lia) E2) as [N V].
  split; [exact N|]. rewrite V, E1. reflexivity.
Qed.

Section BigWords.
Variables (id_start id_continue : Z -> bool).
Hypothesis W : words id_start id_continue.

(** What a number token is. *)
Lemma big_sound : forall s dec v r, number_head s -> lex_number id_start big_mode s = Some (dec, v, r) ->
  (dec = true /\ r = s /\ begins (Z.eqb 46) s = true) \/
  (dec = true /\ exists w, s = w ++ r /\ w <> [] /\ digits 10 w /\ v = VBig (big_of 10 w)) \/
  (dec = false /\ exists p b w, s = p ++ w ++ r /\ radix_prefix p b /\ w <> [] /\ digits b w /\ v = VBig (big_of b w)).
Proof using.
  intros s dec v r HS E.
  assert (IE : forall legacy b w u, int_end id_start big_mode true legacy b w u = Some (dec, v, r) ->
    dec = (b =? 10) /\ v = VBig (big_of b w) /\ r = u).
  { clear. intros legacy b w u E. unfold int_end in E.
    change (big_flag big_mode) with true in E. cbn [negb] in E.
    replace ((b =? 10) && false) with false in E by (rewrite andb_false_r; reflexivity). cbv iota in E.
    assert (SB : (match u with
              | [] => (false, u)
              | c :: r0 => if (c =? 110) && false && negb legacy && negb false then (true, r0) else (false, u)
              end) = (false, u)).
    { destruct u as [|c u]; [reflexivity|]. rewrite !andb_false_r. reflexivity. }
    rewrite SB in E. destruct (begins is_digit u || begins id_start u); [discriminate|].
    cbn [strict big_mode andb orb] in E. injection E as <- <- <-. auto. }
  destruct (dispatch id_start big_mode s eq_refl) as [t ES|p b t RP ES|t ES|legacy NR BD].
  - left. apply IE in E. destruct E as (-> & _ & ->). rewrite ES. auto.
  - right. right. unfold number_from in E. rewrite int_loop_span in E by apply andb_false_r.
    destruct (span (ok_digit b) t) as [w u] eqn:SP. destruct (span_spec _ _ _ _ SP) as (-> & FW & BW).
    destruct w as [|c w]; [discriminate|]. pose proof (radix_base _ _ RP) as RB.
    apply IE in E. destruct E as (-> & -> & ->). split; [apply Z.eqb_neq; lia|].
    exists p, b, (c :: w). split; [exact ES|]. split; [exact RP|]. split; [discriminate|]. split; [|reflexivity].
    apply digits_span; [lia|exact FW].
  - discriminate.
  - right. left. unfold number_from in E. rewrite int_loop_span in E by reflexivity.
    destruct (span (ok_digit 10) s) as [w u] eqn:SP. destruct (span_spec _ _ _ _ SP) as (-> & FW & BW).
    destruct w as [|c w]; [discriminate|]. apply IE in E. destruct E as (-> & -> & ->). split; [reflexivity|].
    exists (c :: w). split; [reflexivity|]. split; [discriminate|]. split; [|reflexivity].
    apply digits_span; [lia|exact FW].
Qed.

Lemma big_int_end : forall legacy b w r, quiet id_start r ->
  int_end id_start big_mode true legacy b w r = Some (b =? 10, VBig (big_of b w), r).
Proof using.
  clear. intros legacy b w r (NM & N110 & N95 & NI & ND). destruct (no_more_parts _ NM) as (M1 & M2 & M3).
  unfold int_end. change (big_flag big_mode) with true. cbn [negb]. rewrite andb_false_r.
  assert (SB : (match r with
            | [] => (false, r)
            | c :: r0 => if (c =? 110) && false && negb legacy && negb false then (true, r0) else (false, r)
            end) = (false, r)).
  { destruct r as [|c u]; [reflexivity|]. rewrite !andb_false_r. reflexivity. }
  rewrite SB, M1, NI. reflexivity.
Qed.

Lemma big_digits : forall b w r, b = 2 \/ b = 8 \/ b = 10 \/ b = 16 -> digits b w -> quiet id_start r ->
  span (ok_digit b) (w ++ r) = (w, r).
Proof using.
  clear. intros b w r B D (NM & N110 & N95 & NI & ND). apply span_app.
  - apply digits_span; [lia|exact D].
  - destruct r as [|c r]; [reflexivity|]. cbn [begins] in ND |- *.
    destruct (ok_digit b c) eqn:OK; [|reflexivity]. apply digit_base in OK; [|lia]. unfold digit_in in OK.
    apply Z.ltb_ge in ND. lia.
Qed.

Lemma big_decimal : forall w r, w <> [] -> digits 10 w -> quiet id_start r ->
  lex_number id_start big_mode (w ++ r) = Some (true, VBig (big_of 10 w), r).
Proof using.
  intros w r NW D Qr. pose proof Qr as (NM & N110 & N95 & NI & ND).
  destruct w as [|c w]; [contradiction|].
  destruct (dispatch id_start big_mode ((c :: w) ++ r) eq_refl) as [t ES|p b t RP ES|t ES|legacy NR BD].
  - exfalso. injection ES as -> _. inversion D as [|? ? D1 _]. discriminate.
  - exfalso. destruct (prefix_head _ _ RP) as (c' & ->). cbn [app] in ES. injection ES as -> ES.
    assert (X : digit_of c' <? 36 = true /\ is_digit c' = false).
    { destruct RP as [[_ [Q|Q]]|[[_ [Q|Q]]|[_ [Q|Q]]]]; injection Q as ->; split; reflexivity. }
    destruct X as [X1 X2]. destruct w as [|c2 w]; cbn [app] in ES.
    + subst r. cbn [begins] in ND. congruence.
    + injection ES as -> _. inversion D as [|? ? _ D1]. inversion D1 as [|? ? D2 _]. subst. apply digit_ten in D2. congruence.
  - exfalso. cbn [app] in ES. injection ES as -> ES. destruct w as [|c2 w]; cbn [app] in ES.
    + subst r. discriminate.
    + injection ES as -> _. inversion D as [|? ? _ D1]. inversion D1 as [|? ? D2 _]. subst. apply digit_ten in D2. discriminate.
  - unfold number_from. rewrite int_loop_span by reflexivity. rewrite big_digits by (auto; lia).
    rewrite big_int_end by exact Qr. reflexivity.
Qed.

Lemma big_radix : forall p b w r, radix_prefix p b -> w <> [] -> digits b w -> quiet id_start r ->
  lex_number id_start big_mode (p ++ w ++ r) = Some (false, VBig (big_of b w), r).
Proof using.
  intros p b w r RP NW DW Qr.
  assert (U : forall p1 b1 t1, radix_prefix p1 b1 -> p ++ w ++ r = p1 ++ t1 -> b1 = b /\ t1 = w ++ r).
  { intros p1 b1 t1 [[-> [-> | ->]]|[[-> [-> | ->]]|[-> [-> | ->]]]];
    destruct RP as [[-> [-> | ->]]|[[-> [-> | ->]]|[-> [-> | ->]]]]; cbn [app]; intros Q; injection Q as Q;
    try discriminate; auto. }
  destruct (dispatch id_start big_mode (p ++ w ++ r) eq_refl) as [t ES|p1 b1 t RP1 ES|t ES|legacy NR BD].
  - destruct (prefix_head _ _ RP) as (c & ->). discriminate.
  - destruct (U _ _ _ RP1 ES) as [-> ->]. pose proof (radix_base _ _ RP) as RB.
    unfold number_from. rewrite int_loop_span by apply andb_false_r. rewrite big_digits by (auto; lia).
    destruct w as [|c w]; [contradiction|]. rewrite big_int_end by exact Qr.
    replace (b =? 10) with false by (symmetry; apply Z.eqb_neq; lia). reflexivity.
  - exfalso. destruct (prefix_head _ _ RP) as (c & ->). cbn [app] in ES. injection ES as -> _.
    destruct RP as [[_ [Q|Q]]|[[_ [Q|Q]]|[_ [Q|Q]]]]; discriminate.
  - exfalso. exact (NR _ _ _ RP eq_refl).
Qed.

Lemma bi0_spec : BigSpec.normal BigModel.bi0 /\ BigSpec.value BigModel.bi0 = 0.
Proof. split; [apply BigProofs.normal_bi0|apply BigProofs.value_bi0]. Qed.

Lemma big_complete : forall s z, string_integer s z ->
  exists b, string_to_big_int id_start id_continue s = Some b /\ BigSpec.normal b /\ BigSpec.value b = z.
Proof.
  intros s z [[H ->]|(a & w & b & -> & Ha & Hb & L)].
  - exists BigModel.bi0. split; [|exact bi0_spec].
    unfold string_to_big_int, signed_token, get_token.
    rewrite <- (app_nil_r s), skip_white by exact H. reflexivity.
  - pose proof (white_quiet _ _ b W Hb) as QB.
    inversion L as [sg neg w' SG NW DW|p r w' RP NW DW]; subst.
    + assert (NH : number_head (w' ++ b)).
      { destruct w' as [|c w']; [contradiction|]. left. exists c, (w' ++ b). split; [reflexivity|].
        apply digit_ten. inversion DW; assumption. }
      destruct (number_head_char _ NH) as (c & HS & N1 & N2 & N3).
      assert (GT : get_token id_start id_continue big_mode (w' ++ b) = Some (TNum true (VBig (big_of 10 w')), b)).
      { rewrite number_token by exact NH. rewrite big_decimal by assumption. reflexivity. }
      destruct (big_of_spec 10 w' ltac:(lia) DW) as [NB VB].
      exists (if neg then BigModel.unary_minus (big_of 10 w') else big_of 10 w').
      unfold string_to_big_int. rewrite <- app_assoc.
      rewrite (signed_token_read _ _ W big_mode a sg neg (w' ++ b) c (TNum true (VBig (big_of 10 w'))) b Ha SG
                 HS N1 N2 N3); [|discriminate|discriminate|exact GT].
      rewrite andb_false_r, at_end_white by exact Hb. rewrite (sign_flags _ _ SG).
      split; [reflexivity|]. destruct neg; [|auto].
      destruct (BigProofs.minus_spec (big_of 10 w') NB) as [N V]. rewrite VB in V. auto.
    + assert (NH : number_head ((p ++ w') ++ b)).
      { destruct (prefix_head _ _ RP) as (c & ->). left. exists 48, (c :: w' ++ b). split; reflexivity. }
      destruct (number_head_char _ NH) as (c & HS & N1 & N2 & N3).
      assert (GT : get_token id_start id_continue big_mode ((p ++ w') ++ b) = Some (TNum false (VBig (big_of r w')), b)).
      { rewrite number_token by exact NH. rewrite <- app_assoc, (big_radix p r w' b) by assumption. reflexivity. }
      pose proof (radix_base _ _ RP) as RB.
      exists (big_of r w'). split; [|apply big_of_spec; [lia|exact DW]].
      unfold string_to_big_int.
      change ((p ++ w') ++ b) with ([] ++ (p ++ w') ++ b).
      rewrite (signed_token_read _ _ W big_mode a [] false ((p ++ w') ++ b) c (TNum false (VBig (big_of r w'))) b Ha);
        [|constructor|exact HS|exact N1|exact N2|exact N3|discriminate|discriminate|exact GT].
      change (has_sign (sign_of_text [])) with false. cbn [andb]. rewrite at_end_white by exact Hb. reflexivity.
Qed.

Lemma big_convert_sound : forall s b, plain s -> sign_adjacent s ->
  string_to_big_int id_start id_continue s = Some b -> BigSpec.normal b /\ string_integer s (BigSpec.value b).
Proof.
  intros s b P SA E. unfold string_to_big_int in E.
  destruct (signed_token id_start id_continue big_mode s) as [[[g tk] r]|] eqn:ST; [|discriminate].
  destruct (signed_sound _ _ _ _ _ _ _ P SA ST) as (a & sg & neg & t & -> & Ha & SG & G & GN & K).
  destruct (plain_app _ _ P) as [_ P1]. destruct (plain_app _ _ P1) as [_ P2].
  destruct tk as [| | |d x|w|]; try discriminate.
  - destruct (has_sign g) eqn:HG; [discriminate|]. injection E as <-. split; [apply bi0_spec|].
    rewrite (GN eq_refl), K. cbn [app]. rewrite app_nil_r. left. split; [exact Ha|apply bi0_spec].
  - destruct (has_sign g && negb d) eqn:HD; [discriminate|].
    destruct x as [n|y]; [discriminate|]. destruct (at_end id_start id_continue big_mode r) eqn:AE; [|discriminate].
    injection E as <-. destruct K as [NH LX].
    destruct (big_sound t d (VBig y) r NH LX) as
      [(-> & -> & B46)|[(-> & w & -> & NW & DW & V)|(-> & p & q & w & -> & RP & NW & DW & V)]].
    + exfalso. destruct P2 as (R1 & _ & R2).
      pose proof (at_end_plain id_start id_continue _ _ R1 R2 AE) as WR. destruct t as [|c t]; [discriminate|].
      inversion WR as [|? ? Hc _]; subst. apply space_facts in Hc.
      cbn [begins] in B46. apply Z.eqb_eq in B46. subst c. tauto.
    + destruct (plain_app _ _ P2) as [_ (R1 & _ & R2)]. pose proof (at_end_plain id_start id_continue _ _ R1 R2 AE) as WR.
      injection V as ->. destruct (big_of_spec 10 w ltac:(lia) DW) as [NB VB].
      assert (V : BigSpec.normal (if is_negative g then BigModel.unary_minus (big_of 10 w) else big_of 10 w) /\
        BigSpec.value (if is_negative g then BigModel.unary_minus (big_of 10 w) else big_of 10 w) =
        if neg then - number_of 10 w else number_of 10 w).
      { rewrite G. destruct neg; [|auto]. destruct (BigProofs.minus_spec (big_of 10 w) NB) as [N V]. rewrite VB in V. auto. }
      destruct V as [V1 V2]. split; [exact V1|]. right.
      exists a, (sg ++ w), r. split; [rewrite <- app_assoc; reflexivity|]. split; [exact Ha|]. split; [exact WR|].
      rewrite V2. constructor; assumption.
    + destruct (plain_app _ _ P2) as [_ P3]. destruct (plain_app _ _ P3) as [_ (R1 & _ & R2)].
      pose proof (at_end_plain id_start id_continue _ _ R1 R2 AE) as WR.
      assert (HG : has_sign g = false) by (destruct (has_sign g); [discriminate|reflexivity]).
      assert (NEG : is_negative g = false) by (destruct g; [reflexivity|reflexivity|discriminate]).
      rewrite (GN HG). cbn [app]. rewrite NEG. injection V as ->. pose proof (radix_base _ _ RP) as RB.
      destruct (big_of_spec q w ltac:(lia) DW) as [NB VB]. split; [exact NB|]. right.
      exists a, (p ++ w), r. split; [rewrite <- app_assoc; reflexivity|]. split; [exact Ha|]. split; [exact WR|].
      rewrite VB. apply il_radix; assumption.
Qed.

Lemma big_exact : forall s z, plain s -> sign_adjacent s ->
  (exists b, string_to_big_int id_start id_continue s = Some b /\ BigSpec.normal b /\ BigSpec.value b = z) <->
  string_integer s z.
Proof.
  intros s z P SA. split.
  - intros (b & E & _ & <-). apply (big_convert_sound s b P SA E).
  - apply big_complete.
Qed.
End BigWords.
