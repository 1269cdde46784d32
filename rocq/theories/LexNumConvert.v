(** * StringToNumber: the whole string *)
Require Import ZArith List Bool Lia QArith.
From Verif Require Import DtoaModel DtoaSpec LexNumModel LexNumSpec LexNumRound LexNumScan LexNumString.
From Verif Require StrModel StrSpec.
Import ListNotations.
Local Open Scope Z_scope.

Definition letter (c : Z) : bool := ((97 <=? c) && (c <=? 122)) || ((65 <=? c) && (c <=? 90)).

(** What is known about the characters of identifiers. *)
Record words (id_start id_continue : Z -> bool) : Prop := {
  start_ascii : forall c, 0 <= c < 128 -> id_start c = letter c || (c =? 36) || (c =? 95);
  continue_ascii : forall c, 0 <= c < 128 ->
    id_continue c = letter c || is_digit c || (c =? 36) || (c =? 95);
  space_word : forall c, StrSpec.es_space c -> id_start c = false /\ id_continue c = false }.

(** Strings without comments, escapes and U+0085. *)
Definition plain (s : list Z) : Prop := ~ In 47 s /\ ~ In 92 s /\ ~ In 0x85 s.
(** No white space after a leading sign. *)
Definition sign_adjacent (s : list Z) : Prop :=
  forall a c d b, s = a ++ c :: d :: b -> white a -> c = 43 \/ c = 45 -> ~ StrSpec.es_space d.
(** Integers with a radix prefix are at most 2^53. *)
Definition small_radix (s : list Z) : Prop :=
  forall a p r w b, s = a ++ p ++ w ++ b -> white a -> radix_prefix p r -> digits r w ->
  number_of r w <= 2 ^ 53.

(** ** White space *)
Lemma space_facts : forall c, StrSpec.es_space c ->
  StrModel.is_white_space c = true /\ c <> 47 /\ c <> 92 /\ c <> 43 /\ c <> 45 /\ c <> 46 /\ c <> 110 /\ c <> 95 /\
  is_digit c = false /\ exp_head c = false /\ (digit_of c <? 36) = false.
Proof.
  intros c H. unfold StrSpec.es_space in H. cbn [In] in H.
  repeat (destruct H as [<-|H]; [vm_compute; repeat split; discriminate|]). contradiction.
Qed.

Lemma space_back : forall c, StrModel.is_white_space c = true -> c <> 0x85 -> StrSpec.es_space c.
Proof.
  intros c H N. unfold StrModel.is_white_space, StrModel.u_isUWhiteSpace in H.
  assert (K : 9 <= c <= 13 \/ c = 0x20 \/ c = 0xa0 \/ c = 0x1680 \/ 0x2000 <= c <= 0x200a \/ c = 0x2028 \/
              c = 0x2029 \/ c = 0x202f \/ c = 0x205f \/ c = 0x3000 \/ c = 0xfeff) by lia.
  unfold StrSpec.es_space. cbn [In]. lia.
Qed.

Lemma white_quiet : forall id_start id_continue r, words id_start id_continue -> white r -> quiet id_start r.
Proof.
  intros id_start id_continue r W H. unfold quiet, no_more. destruct r as [|c r]; [repeat split|].
  inversion H as [|? ? Hc _]; subst. destruct (space_facts c Hc) as (_ & _ & _ & _ & _ & N46 & N110 & N95 & D & X & Y).
  destruct (space_word _ _ W c Hc) as [I _].
  unfold begins. rewrite D, X, I, Y.
  replace (c =? 46) with false by (symmetry; apply Z.eqb_neq; exact N46).
  repeat split; apply Z.eqb_neq; auto.
Qed.

Lemma skip_white : forall a s, white a -> skip Code (a ++ s) = skip Code s.
Proof.
  intros a s H. induction H as [|c a Hc H IH]; [reflexivity|].
  destruct (space_facts c Hc) as (S & N & _). cbn [app skip].
  replace (c =? 47) with false by (symmetry; apply Z.eqb_neq; exact N). rewrite S. exact IH.
Qed.

Lemma skip_plain : forall s t, ~ In 47 s -> ~ In 0x85 s -> skip Code s = Some t ->
  exists a, s = a ++ t /\ white a.
Proof.
  induction s as [|c s IH]; intros t N1 N2 E.
  - injection E as <-. exists []. split; [reflexivity|constructor].
  - cbn [skip] in E. destruct (Z.eqb_spec c 47) as [->|N]; [exfalso; apply N1; left; reflexivity|].
    destruct (StrModel.is_white_space c) eqn:S.
    + destruct (IH t) as (a & -> & H); [intros Q; apply N1; right; exact Q|intros Q; apply N2; right; exact Q|exact E|].
      exists (c :: a). split; [reflexivity|]. constructor; [|exact H].
      apply space_back; [exact S|]. intros ->. apply N2. left. reflexivity.
    + injection E as <-. exists []. split; [reflexivity|constructor].
Qed.

(** A character that cannot be skipped. *)
Lemma skip_stop : forall c r, c <> 47 -> StrModel.is_white_space c = false -> skip Code (c :: r) = Some (c :: r).
Proof.
  intros c r N S. cbn [skip]. rewrite S. destruct (Z.eqb_spec c 47); [contradiction|reflexivity].
Qed.

Section Convert.
Variables (id_start id_continue : Z -> bool).
Hypothesis W : words id_start id_continue.
Notation get_token := (get_token id_start id_continue).
Notation signed_token := (signed_token id_start id_continue).
Notation at_end := (at_end id_start id_continue).

Lemma at_end_white : forall md r, white r -> at_end md r = true.
Proof.
  intros md r H. unfold LexNumModel.at_end, LexNumModel.get_token.
  rewrite <- (app_nil_r r), (skip_white r []) by exact H. reflexivity.
Qed.

Lemma at_end_plain : forall md r, ~ In 47 r -> ~ In 0x85 r -> at_end md r = true -> white r.
Proof.
  intros md r N1 N2 H. unfold LexNumModel.at_end, LexNumModel.get_token in H.
  destruct (skip Code r) as [t|] eqn:E; [|discriminate].
  destruct (skip_plain _ _ N1 N2 E) as (a & -> & Ha). destruct t as [|c t].
  - rewrite app_nil_r. exact Ha.
  - exfalso. revert H. cbv zeta.
    destruct (lex_number id_start md (c :: t)) as [[[? ?] ?]|];
    destruct (lex_identifier id_start id_continue (c :: t)) as [[? ?]|];
    repeat match goal with |- context [if ?b then _ else _] => destruct b end; discriminate.
Qed.

(** ** Tokens that are met *)
Definition number_head (s : list Z) : Prop :=
  (exists c t, s = c :: t /\ is_digit c = true) \/ (exists c t, s = 46 :: c :: t /\ is_digit c = true).

Lemma digit_range : forall c, is_digit c = true <-> 48 <= c <= 57.
Proof. intros c. unfold is_digit, LexNumModel.is_digit. lia. Qed.

Lemma digit_no_space : forall c, is_digit c = true -> StrModel.is_white_space c = false.
Proof.
  intros c H. apply digit_range in H. unfold StrModel.is_white_space, StrModel.u_isUWhiteSpace. lia.
Qed.

Lemma number_token : forall md s, number_head s ->
  get_token md s = match lex_number id_start md s with Some (d, v, r) => Some (TNum d v, r) | None => None end.
Proof.
  intros md s [(c & t & -> & C)|(c & t & -> & C)]; unfold LexNumModel.get_token.
  - pose proof (digit_no_space c C) as S. pose proof (proj1 (digit_range c) C) as R.
    rewrite skip_stop by (try exact S; lia).
    rewrite C.
    replace (c =? 46) with false by (symmetry; apply Z.eqb_neq; lia).
    replace (c =? 92) with false by (symmetry; apply Z.eqb_neq; lia).
    replace ((c =? 34) || (c =? 39) || (c =? 47) || (c =? 96) || (c =? 123) || (c =? 125) || (c =? 35)) with false by lia.
    reflexivity.
  - rewrite skip_stop by (try reflexivity; lia). cbn [Z.eqb Pos.eqb begins]. rewrite C. reflexivity.
Qed.

Lemma infinity_token : forall md r, white r ->
  get_token md (infinity_text ++ r) = Some (TName infinity_text, r).
Proof.
  intros md r H. unfold infinity_text, LexNumModel.get_token. cbn [app].
  rewrite skip_stop by (try reflexivity; lia). cbn [Z.eqb Pos.eqb orb].
  replace (is_digit 73) with false by reflexivity.
  rewrite (start_ascii _ _ W 73) by lia. change (letter 73 || (73 =? 36) || (73 =? 95)) with true. cbv iota.
  assert (I : forall l, Forall (fun c => 0 <= c < 128 /\ letter c = true) l ->
              ident id_continue None (l ++ r) = Some (l, r)).
  { intros l F. induction F as [|c l [C1 C2] F IH]; cbn [app].
    - destruct r as [|c r]; [reflexivity|]. inversion H as [|? ? Hc _]; subst.
      destruct (space_facts c Hc) as (_ & _ & N92 & _). destruct (space_word _ _ W c Hc) as [_ I].
      cbn [ident]. rewrite I. destruct (Z.eqb_spec c 92); [contradiction|reflexivity].
    - cbn [ident]. rewrite (continue_ascii _ _ W c C1), C2. cbn [orb].
      destruct (Z.eqb_spec c 92) as [->|]; [discriminate|]. rewrite IH. reflexivity. }
  unfold lex_identifier.
  change (73 :: 110 :: 102 :: 105 :: 110 :: 105 :: 116 :: 121 :: r) with (infinity_text ++ r).
  rewrite (I infinity_text) by (unfold infinity_text; repeat constructor; lia).
  unfold infinity_text. rewrite (start_ascii _ _ W 73) by lia. reflexivity.
Qed.

Lemma sign_token : forall md s c, (exists r, s = c :: r) -> c <> 43 -> c <> 45 -> c <> 61 ->
  get_token md (43 :: s) = Some (TPlus, s) /\ get_token md (45 :: s) = Some (TMinus, s).
Proof.
  intros md s c (r & ->) N1 N2 N3. unfold LexNumModel.get_token.
  rewrite !skip_stop by (try reflexivity; lia). cbn [Z.eqb Pos.eqb orb begins].
  rewrite !(start_ascii _ _ W) by lia.
  change (is_digit 43) with false. change (is_digit 45) with false.
  change (letter 43 || (43 =? 36) || (43 =? 95)) with false.
  change (letter 45 || (45 =? 36) || (45 =? 95)) with false. cbv iota.
  destruct (Z.eqb_spec c 43); [contradiction|]. destruct (Z.eqb_spec c 45); [contradiction|].
  destruct (Z.eqb_spec c 61); [contradiction|]. split; reflexivity.
Qed.

Definition sign_of_text (sg : list Z) : sign :=
  match sg with [] => Nothing | c :: _ => if c =? 45 then Negative else Positive end.

Lemma signed_token_read : forall md a sg neg s c tk r, white a -> sign_text sg neg ->
  (exists t, s = c :: t) -> c <> 43 -> c <> 45 -> c <> 61 -> tk <> TPlus -> tk <> TMinus ->
  get_token md s = Some (tk, r) ->
  signed_token md (a ++ sg ++ s) = Some (sign_of_text sg, tk, r).
Proof.
  intros md a sg neg s c tk r Ha SG HS N1 N2 N3 T1 T2 E.
  destruct (sign_token md s c HS N1 N2 N3) as [P1 P2].
  unfold LexNumModel.signed_token. unfold LexNumModel.get_token at 1. rewrite skip_white by exact Ha.
  inversion SG; subst; cbn [app].
  - unfold LexNumModel.get_token in E at 1. unfold LexNumModel.get_token at 1.
    change (sign_of_text []) with Nothing. unfold LexNumModel.get_token in E. rewrite E.
    destruct tk; try reflexivity; contradiction.
  - unfold LexNumModel.get_token in P1. rewrite P1. rewrite E. reflexivity.
  - unfold LexNumModel.get_token in P2. rewrite P2. rewrite E. reflexivity.
Qed.

Lemma sign_flags : forall sg neg, sign_text sg neg -> is_negative (sign_of_text sg) = neg.
Proof. intros sg neg H. inversion H; reflexivity. Qed.

Lemma negate_double : forall g p q, LexNumModel.negate (to_double g p q) = to_double (negb g) p q.
Proof.
  intros g p q. unfold to_double.
  destruct (half_even _ _ =? 2 ^ 53).
  - change (2 ^ 52 =? 0) with false. cbv iota. destruct (971 <? _); reflexivity.
  - destruct (_ =? 0); [reflexivity|]. destruct (971 <? _); reflexivity.
Qed.

Lemma decimal_char : forall w D E, decimal_of w D E -> number_head w.
Proof. exact decimal_head. Qed.

Lemma number_head_app : forall w r, number_head w -> number_head (w ++ r).
Proof.
  intros w r [(c & t & -> & C)|(c & t & -> & C)].
  - left. exists c, (t ++ r). auto.
  - right. exists c, (t ++ r). auto.
Qed.

Lemma number_head_char : forall s, number_head s -> exists c, (exists t, s = c :: t) /\ c <> 43 /\ c <> 45 /\ c <> 61.
Proof.
  intros s [(c & t & -> & C)|(c & t & -> & C)].
  - apply digit_range in C. exists c. split; [eexists; reflexivity|lia].
  - exists 46. split; [eexists; reflexivity|lia].
Qed.

Lemma len_app : forall a b : list Z, len (a ++ b) = len a + len b.
Proof. intros. unfold len. rewrite app_length. lia. Qed.
Lemma len_nonneg : forall a : list Z, 0 <= len a.
Proof. intros. unfold len. lia. Qed.

(** ** Every string of the standard is converted *)
Lemma convert_decimal : forall a sg neg w D E b, white a -> sign_text sg neg -> decimal_of w D E -> len w <= 19000 ->
  white b -> string_to_number id_start id_continue (a ++ (sg ++ w) ++ b) = dec_double neg D E.
Proof.
  intros a sg neg w D E b Ha SG DE LW Hb. pose proof (white_quiet _ _ b W Hb) as QB.
  pose proof (number_head_app w b (decimal_char _ _ _ DE)) as NH.
  destruct (number_head_char _ NH) as (c & HS & N1 & N2 & N3).
  assert (GT : get_token number_mode (w ++ b) = Some (TNum true (VNum (dec_double false D E)), b)).
  { rewrite number_token by exact NH. rewrite (lex_decimal id_start w D E b DE LW QB). reflexivity. }
  unfold string_to_number. rewrite <- app_assoc.
  rewrite (signed_token_read number_mode a sg neg (w ++ b) c (TNum true (VNum (dec_double false D E))) b Ha SG
             HS N1 N2 N3); [|discriminate|discriminate|exact GT].
  rewrite andb_false_r, at_end_white by exact Hb. rewrite (sign_flags _ _ SG).
  destruct neg; [|reflexivity]. unfold dec_double. rewrite negate_double. reflexivity.
Qed.

Lemma convert_complete : forall s v, string_number s v -> len s <= 19000 -> small_radix s ->
  string_to_number id_start id_continue s = v.
Proof.
  intros s v [[H ->]|(a & w & b & -> & Ha & Hb & L)] LN SR.
  - unfold string_to_number, LexNumModel.signed_token, LexNumModel.get_token.
    rewrite <- (app_nil_r s), skip_white by exact H. reflexivity.
  - pose proof (white_quiet _ _ b W Hb) as QB. rewrite !len_app in LN.
    pose proof (len_nonneg a). pose proof (len_nonneg b).
    inversion L as [sg neg w' D E v' SG DE R|sg neg SG|p r w' v' RP NW DW R]; subst.
    + assert (LW : len w' <= 19000) by (rewrite len_app in LN; pose proof (len_nonneg sg); lia).
      rewrite (dec_double_only neg D E v (decimal_nonneg _ _ _ DE) R). apply convert_decimal; assumption.
    + pose proof (infinity_token number_mode b Hb) as GT.
      unfold string_to_number. rewrite <- app_assoc.
      rewrite (signed_token_read number_mode a sg neg (infinity_text ++ b) 73 (TName infinity_text) b Ha SG);
        [|eexists; reflexivity|lia|lia|lia|discriminate|discriminate|exact GT].
      rewrite at_end_white by exact Hb. rewrite (sign_flags _ _ SG). reflexivity.
    + assert (NH : number_head ((p ++ w') ++ b)).
      { destruct (prefix_head _ _ RP) as (c & ->). left. exists 48, (c :: w' ++ b). split; reflexivity. }
      destruct (number_head_char _ NH) as (c & HS & N1 & N2 & N3).
      assert (GT : get_token number_mode ((p ++ w') ++ b) = Some (TNum false (VNum (fst (strtoi w' r))), b)).
      { rewrite number_token by exact NH. rewrite <- app_assoc, (lex_radix id_start p r w' b RP NW DW QB). reflexivity. }
      unfold string_to_number.
      change ((p ++ w') ++ b) with ([] ++ (p ++ w') ++ b).
      rewrite (signed_token_read number_mode a [] false ((p ++ w') ++ b) c (TNum false (VNum (fst (strtoi w' r)))) b Ha);
        [|constructor|exact HS|exact N1|exact N2|exact N3|discriminate|discriminate|exact GT].
      change (has_sign (sign_of_text [])) with false. cbn [andb]. rewrite at_end_white by exact Hb.
      change (is_negative (sign_of_text [])) with false. cbv iota.
      assert (B : number_of r w' <= 2 ^ 53).
      { apply (SR a p r w' b); [rewrite <- !app_assoc; reflexivity|exact Ha|exact RP|exact DW]. }
      rewrite (strtoi_radix r w' (radix_base _ _ RP) NW DW B). symmetry.
      apply int_double_only; [|exact R]. pose proof (radix_base _ _ RP). apply number_bound; [lia|exact DW].
Qed.

(** ** Nothing else is converted *)

(** A token and the white space before it. *)
Lemma token_sound : forall md s tk r, plain s -> get_token md s = Some (tk, r) ->
  exists a t, s = a ++ t /\ white a /\
  match tk with
  | TEnd => t = []
  | TPlus => t = 43 :: r
  | TMinus => t = 45 :: r
  | TNum d v => number_head t /\ lex_number id_start md t = Some (d, v, r)
  | TName w => t = w ++ r
  | TOther => True
  end.
Proof.
  intros md s tk r (N47 & N92 & N85) E. unfold LexNumModel.get_token in E.
  destruct (skip Code s) as [t|] eqn:SK; [|discriminate].
  destruct (skip_plain _ _ N47 N85 SK) as (a & -> & Ha). exists a, t. split; [reflexivity|]. split; [exact Ha|].
  destruct t as [|c t]; [injection E as <- <-; reflexivity|].
  assert (NAME : forall w u, lex_identifier id_start id_continue (c :: t) = Some (w, u) -> c :: t = w ++ u).
  { assert (NT : ~ In 92 (c :: t)) by (intros Q; apply N92; apply in_or_app; right; exact Q).
    intros w u. unfold lex_identifier.
    assert (I : forall l, ~ In 92 l -> forall w' u', ident id_continue None l = Some (w', u') -> l = w' ++ u').
    { induction l as [|x l IH]; intros NX w' u' Q; cbn [ident] in Q; [injection Q as <- <-; reflexivity|].
      destruct (Z.eqb_spec x 92) as [->|]; [exfalso; apply NX; left; reflexivity|].
      destruct (id_continue x).
      - destruct (ident id_continue None l) as [[w0 t0]|] eqn:Q'; [|discriminate]. injection Q as <- <-.
        cbn [app]. f_equal. apply IH; [intros Z0; apply NX; right; exact Z0|reflexivity].
      - injection Q as <- <-. reflexivity. }
    destruct (ident id_continue None (c :: t)) as [[w0 t0]|] eqn:Q; [|discriminate].
    destruct w0 as [|x w0]; [discriminate|]. destruct (id_start x); [|discriminate].
    intros K. injection K as <- <-. apply I; [exact NT|exact Q]. }
  revert E.
  destruct (Z.eqb_spec c 46) as [->|N46].
  { destruct (begins is_digit t) eqn:B; [|intros E; injection E as <- <-; exact I].
    destruct (lex_number id_start md (46 :: t)) as [[[d v] u]|] eqn:LX; [|discriminate].
    intros E. injection E as <- <-. split; [|reflexivity].
    destruct t as [|x t]; [discriminate|]. right. exists x, t. auto. }
  destruct (Z.eqb_spec c 92) as [->|].
  { exfalso. apply N92. apply in_or_app. right. left. reflexivity. }
  destruct ((c =? 34) || (c =? 39) || (c =? 47) || (c =? 96) || (c =? 123) || (c =? 125) || (c =? 35));
    [intros E; injection E as <- <-; exact I|].
  destruct (is_digit c) eqn:DC.
  { destruct (lex_number id_start md (c :: t)) as [[[d v] u]|] eqn:LX; [|discriminate].
    intros E. injection E as <- <-. split; [|reflexivity]. left. exists c, t. auto. }
  destruct (id_start c).
  { destruct (lex_identifier id_start id_continue (c :: t)) as [[w u]|] eqn:LX; [|discriminate].
    intros E. injection E as <- <-. apply NAME. reflexivity. }
  destruct (Z.eqb_spec c 43) as [->|].
  { destruct (begins _ t); intros E; injection E as <- <-; [exact I|reflexivity]. }
  destruct (Z.eqb_spec c 45) as [->|].
  { destruct (begins _ t); intros E; injection E as <- <-; [exact I|reflexivity]. }
  intros E. injection E as <- <-. exact I.
Qed.

Lemma plain_app : forall a b, plain (a ++ b) -> plain a /\ plain b.
Proof.
  intros a b (A & B & C). unfold plain.
  repeat split; intros Q; first [solve [apply A; apply in_or_app; auto] | solve [apply B; apply in_or_app; auto]
    | apply C; apply in_or_app; auto].
Qed.

(** The sign and the token after it; [a]: white space. *)
Lemma signed_sound : forall md s g tk r, plain s -> sign_adjacent s -> signed_token md s = Some (g, tk, r) ->
  exists a sg neg t, s = a ++ sg ++ t /\ white a /\ sign_text sg neg /\ is_negative g = neg /\
    (has_sign g = false -> sg = []) /\
  match tk with
  | TEnd => t = []
  | TNum d v => number_head t /\ lex_number id_start md t = Some (d, v, r)
  | TName w => t = w ++ r
  | _ => True
  end.
Proof.
  intros md s g tk r P SA E. unfold LexNumModel.signed_token in E.
  destruct (get_token md s) as [[t0 r0]|] eqn:E0; [|discriminate].
  destruct (token_sound _ _ _ _ P E0) as (a & t & -> & Ha & K).
  assert (SGN : forall c, c = 43 \/ c = 45 -> t = c :: r0 -> forall t1 r1, get_token md r0 = Some (t1, r1) ->
    match t1 with
    | TEnd => r0 = []
    | TNum d v => number_head r0 /\ lex_number id_start md r0 = Some (d, v, r1)
    | TName w => r0 = w ++ r1
    | _ => True
    end).
  { intros c HC -> t1 r1 E1. destruct (plain_app _ _ P) as [_ P1]. apply (plain_app [c] r0) in P1. destruct P1 as [_ P1].
    destruct (token_sound _ _ _ _ P1 E1) as (a1 & u & -> & Ha1 & K1).
    assert (a1 = []).
    { destruct a1 as [|x a1]; [reflexivity|]. exfalso. inversion Ha1; subst.
      exact (SA a c x (a1 ++ u) eq_refl Ha HC H1). }
    subst a1. cbn [app]. destruct t1; try exact I; exact K1. }
  destruct t0;
    try (injection E as <- <- <-; exists a, [], false, t; split; [reflexivity|]; split; [exact Ha|];
         split; [constructor|]; split; [reflexivity|]; split; [intros _; reflexivity|];
         first [exact K | exact I]).
  - destruct (get_token md r0) as [[t1 r1]|] eqn:E1; [|discriminate]. injection E as <- <- <-.
    pose proof (SGN 43 (or_introl eq_refl) K _ _ eq_refl) as Q.
    exists a, [43], false, r0. split; [rewrite K; reflexivity|]. split; [exact Ha|]. split; [constructor|].
    split; [reflexivity|]. split; [discriminate|]. destruct t1; try exact I; exact Q.
  - destruct (get_token md r0) as [[t1 r1]|] eqn:E1; [|discriminate]. injection E as <- <- <-.
    pose proof (SGN 45 (or_intror eq_refl) K _ _ eq_refl) as Q.
    exists a, [45], true, r0. split; [rewrite K; reflexivity|]. split; [exact Ha|]. split; [constructor|].
    split; [reflexivity|]. split; [discriminate|]. destruct t1; try exact I; exact Q.
Qed.

Lemma infinity_eq : forall w, is_infinity w = true -> w = infinity_text.
Proof.
  intros w. unfold is_infinity. destruct (list_eq_dec Z.eq_dec w text_infinity) as [->|]; [reflexivity|discriminate].
Qed.

Lemma convert_sound : forall s v, plain s -> sign_adjacent s -> len s <= 19000 -> small_radix s ->
  string_to_number id_start id_continue s = v -> v <> Nan -> string_number s v.
Proof.
  intros s v P SA LN SR E NN. unfold string_to_number in E.
  destruct (signed_token number_mode s) as [[[g tk] r]|] eqn:ST; [|congruence].
  destruct (signed_sound _ _ _ _ _ P SA ST) as (a & sg & neg & t & -> & Ha & SG & G & GN & K).
  destruct (plain_app _ _ P) as [_ P1]. destruct (plain_app _ _ P1) as [_ P2].
  rewrite !len_app in LN. pose proof (len_nonneg a). pose proof (len_nonneg sg).
  destruct tk as [| | |d x|w|]; try congruence.
  - (* the end *)
    destruct (has_sign g) eqn:HG; [congruence|]. rewrite (GN eq_refl), K in *. cbn [app]. rewrite app_nil_r.
    left. split; [exact Ha|congruence].
  - (* a number *)
    destruct (has_sign g && negb d) eqn:HD; [congruence|].
    destruct x as [n|]; [|congruence]. destruct (at_end number_mode r) eqn:AE; [|congruence].
    destruct K as [NH LX].
    destruct (lex_sound id_start t d n r NH LX) as [(-> & w & D & X & -> & DE & V)|(-> & p & b & w & -> & RP & NW & DW & V)].
    + destruct (plain_app _ _ P2) as [_ (R1 & _ & R2)]. pose proof (at_end_plain _ _ R1 R2 AE) as WR.
      rewrite len_app in LN. pose proof (len_nonneg r). specialize (V ltac:(lia)). subst n.
      right. exists a, (sg ++ w), r. split; [rewrite <- app_assoc; reflexivity|]. split; [exact Ha|]. split; [exact WR|].
      apply (sl_decimal sg neg w D X v SG DE).
      replace v with (dec_double neg D X); [apply dec_double_spec; eapply decimal_nonneg; exact DE|].
      rewrite <- E, G. destruct neg; [|reflexivity]. unfold dec_double. rewrite negate_double. reflexivity.
    + destruct (plain_app _ _ P2) as [_ P3]. destruct (plain_app _ _ P3) as [_ (R1 & _ & R2)].
      pose proof (at_end_plain _ _ R1 R2 AE) as WR.
      assert (HG : has_sign g = false) by (destruct (has_sign g); [discriminate|reflexivity]).
      rewrite (GN HG) in *. cbn [app] in *.
      assert (B : number_of b w <= 2 ^ 53) by (apply (SR a p b w r eq_refl Ha RP DW)).
      right. exists a, (p ++ w), r. split; [rewrite <- app_assoc; reflexivity|]. split; [exact Ha|]. split; [exact WR|].
      apply (sl_radix p b w v RP NW DW).
      assert (NEG : neg = false) by (inversion SG; reflexivity).
      rewrite <- E, G, NEG, V. pose proof (radix_base _ _ RP) as RB.
      rewrite (strtoi_radix b w RB NW DW B). apply int_double_spec. apply number_bound; [lia|exact DW].
  - (* Infinity *)
    destruct (is_infinity w) eqn:IW; [|cbn [andb] in E; congruence]. cbn [andb] in E.
    destruct (at_end number_mode r) eqn:AE; [|congruence]. apply infinity_eq in IW. subst w t.
    destruct (plain_app _ _ P2) as [_ (R1 & _ & R2)]. pose proof (at_end_plain _ _ R1 R2 AE) as WR.
    right. exists a, (sg ++ infinity_text), r. split; [rewrite <- app_assoc; reflexivity|]. split; [exact Ha|].
    split; [exact WR|]. rewrite <- E, G. apply sl_infinity. exact SG.
Qed.

Lemma literal_number : forall s v, string_number s v -> v <> Nan.
Proof.
  intros s v [[_ ->]|(a & w & b & _ & _ & _ & L)]; [discriminate|].
  inversion L; subst; try discriminate; intros ->; contradiction.
Qed.

Lemma convert_exact : forall s v, plain s -> sign_adjacent s -> len s <= 19000 -> small_radix s ->
  string_to_number id_start id_continue s = v <-> number_of_string s v.
Proof.
  intros s v P SA LN SR. split.
  - intros E. assert (D : v = Nan \/ v <> Nan) by (destruct v; [right; discriminate..|left; reflexivity]).
    destruct D as [->|N].
    + right. split; [|reflexivity]. intros u Q. pose proof (convert_complete s u Q LN SR) as C.
      rewrite E in C. subst u. exact (literal_number _ _ Q eq_refl).
    + left. apply convert_sound; assumption.
  - intros [Q|[NQ ->]].
    + apply convert_complete; assumption.
    + destruct (string_to_number id_start id_continue s) eqn:E; [| | |reflexivity]; exfalso;
      eapply NQ; apply convert_sound; try eassumption; discriminate.
Qed.
End Convert.
