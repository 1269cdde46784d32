(** * Numbers read back from their texts *)
Require Import ZArith QArith Qpower List Bool Lia.
From Verif Require Import DtoaModel DtoaSpec DtoaProofs DtoaText DtoaProperties.
From Verif Require Import LexNumModel LexNumSpec LexNumRound LexNumScan LexNumString LexNumConvert.
Import ListNotations.
Local Open Scope Z_scope.

Lemma digit_character : forall d, 0 <= d < 10 -> digit_of (character d) = d.
Proof.
  intros d H. unfold character. replace (d <? 10) with true by lia. unfold digit_of.
  replace ((48 <=? 48 + d) && (48 + d <=? 57)) with true by lia. lia.
Qed.

Lemma text_digits : forall ds, digit_list 10 ds -> digits 10 (text ds) /\ map digit_of (text ds) = ds.
Proof.
  intros ds H. induction H as [|d ds Hd H [IH1 IH2]]; [split; [constructor|reflexivity]|].
  cbn [text map]. change (map character ds) with (text ds). split.
  - constructor; [|exact IH1]. unfold digit_in. rewrite digit_character by exact Hd. lia.
  - rewrite digit_character, IH2 by exact Hd. reflexivity.
Qed.

Lemma number_text : forall ds, digit_list 10 ds -> number_of 10 (text ds) = DtoaSpec.value 10 ds.
Proof. intros ds H. unfold number_of. rewrite (proj2 (text_digits ds H)). reflexivity. Qed.

Lemma zeros_text : forall n, zeros n = text (repeat 0 (Z.to_nat n)).
Proof. intros. unfold zeros. rewrite text_zeros. reflexivity. Qed.

Lemma zeros_digits : forall n, digit_list 10 (repeat 0 n).
Proof. intros n. induction n; constructor; [lia|assumption]. Qed.

Lemma text_app : forall a b, text (a ++ b) = text a ++ text b.
Proof. intros. apply map_app. Qed.

Lemma exponent_text_of : forall e, exponent_of (exponent_text e) e.
Proof.
  intros e. unfold exponent_text, decimal.
  destruct (numeral_ok 10 (Z.abs e) ltac:(lia) ltac:(lia)) as (V & D & N & _).
  destruct (text_digits _ D) as [T _]. pose proof (number_text _ D) as NT.
  assert (NE : text (numeral 10 (Z.abs e)) <> []) by (destruct (numeral 10 (Z.abs e)); [contradiction|discriminate]).
  destruct (Z.ltb_spec e 0).
  - replace e with (if true then - number_of 10 (text (numeral 10 (Z.abs e))) else number_of 10 (text (numeral 10 (Z.abs e)))) at 2
      by (rewrite NT, V; lia).
    apply (exp_some 101 [45] true); auto. constructor.
  - replace e with (if false then - number_of 10 (text (numeral 10 (Z.abs e))) else number_of 10 (text (numeral 10 (Z.abs e)))) at 2
      by (rewrite NT, V; lia).
    apply (exp_some 101 [43] false); auto. constructor.
Qed.

Lemma take_drop : forall n (l : list Z), take n l ++ drop n l = l.
Proof. intros. apply firstn_skipn. Qed.

Lemma drop_len : forall n (l : list Z), 0 <= n <= len l -> len (drop n l) = len l - n.
Proof. intros n l H. unfold len, drop in *. rewrite skipn_length. lia. Qed.

Lemma split_digits : forall n w, digits 10 w -> digits 10 (take n w) /\ digits 10 (drop n w).
Proof. intros n w H. rewrite <- (take_drop n w) in H. apply Forall_app in H. exact H. Qed.

(** The text of Number::toString is a decimal literal for its digits. *)
Lemma layout_decimal : forall ds nv, tidy ds -> exists D E,
  decimal_of (string_layout ds nv) D E /\ (dec_q D E == decimal_value ds nv)%Q.
Proof.
  intros ds nv (DL & NE & _ & _). destruct (text_digits ds DL) as [T _]. pose proof (number_text ds DL) as NT.
  assert (NEt : text ds <> []) by (destruct ds; [contradiction|discriminate]).
  assert (LT : len (text ds) = len ds) by (unfold len, text; rewrite map_length; reflexivity).
  assert (L1 : 1 <= len ds) by (unfold len; destruct ds; [contradiction|cbn [length]; lia]).
  unfold string_layout. change (decimal_value ds nv) with (dec_q (DtoaSpec.value 10 ds) (nv - len ds)).
  destruct ((len ds <=? nv) && (nv <=? 21)) eqn:C1.
  { exists (number_of 10 (text ds ++ zeros (nv - len ds))), 0. split.
    - rewrite <- (app_nil_r (text ds ++ zeros (nv - len ds))) at 1. apply dec_whole; [|  |constructor].
      + intros Q. apply app_eq_nil in Q. tauto.
      + apply Forall_app. split; [exact T|]. rewrite zeros_text. apply text_digits, zeros_digits.
    - rewrite zeros_text, <- text_app, number_text by (apply Forall_app; split; [exact DL|apply zeros_digits]).
      rewrite value_app, value_zeros. change (DtoaProofs.zlen (repeat 0 (Z.to_nat (nv - len ds)))) with (Z.of_nat (length (repeat 0 (Z.to_nat (nv - len ds))))).
      rewrite repeat_length. unfold dec_q.
      replace (Z.of_nat (Z.to_nat (nv - len ds))) with (nv - len ds) by lia.
      rewrite Z.add_0_r, inject_Z_mult, Zpower_Qpower by lia. cbn [Qpower]. rewrite Qmult_1_r.
      reflexivity. }
  destruct ((0 <? nv) && (nv <=? 21)) eqn:C2.
  { exists (DtoaSpec.value 10 ds), (nv - len ds). split; [|reflexivity].
    destruct (split_digits nv _ T) as [T1 T2].
    replace (DtoaSpec.value 10 ds) with (number_of 10 (take nv (text ds) ++ drop nv (text ds))) by (rewrite take_drop; exact NT).
    replace (nv - len ds) with (0 - len (drop nv (text ds))) by (rewrite drop_len; lia).
    rewrite <- (app_nil_r (drop nv (text ds))) at 1.
    apply dec_point; [rewrite take_drop; exact NEt|exact T1|exact T2|constructor]. }
  destruct ((-6 <? nv) && (nv <=? 0)) eqn:C3.
  { exists (DtoaSpec.value 10 ds), (nv - len ds). split; [|reflexivity].
    assert (ZD : digits 10 (zeros (- nv) ++ text ds)).
    { apply Forall_app. split; [|exact T]. rewrite zeros_text. apply text_digits, zeros_digits. }
    replace (DtoaSpec.value 10 ds) with (number_of 10 ([48] ++ zeros (- nv) ++ text ds)).
    2:{ change [48] with (text [0]). rewrite zeros_text, <- !text_app, number_text.
        - rewrite !value_app, value_zeros. change (DtoaSpec.value 10 [0]) with 0. lia.
        - apply Forall_app. split; [repeat constructor; lia|]. apply Forall_app. split; [apply zeros_digits|exact DL]. }
    replace (nv - len ds) with (0 - len (zeros (- nv) ++ text ds)).
    2:{ rewrite len_app, LT. unfold len, zeros. rewrite repeat_length. lia. }
    change (48 :: 46 :: zeros (- nv) ++ text ds) with ([48] ++ 46 :: zeros (- nv) ++ text ds).
    rewrite <- (app_nil_r (zeros (- nv) ++ text ds)) at 1.
    apply dec_point; [discriminate|repeat constructor|exact ZD|constructor]. }
  pose proof (exponent_text_of (nv - 1)) as X.
  destruct (Z.eqb_spec (len ds) 1) as [K1|K1].
  { exists (DtoaSpec.value 10 ds), (nv - len ds). split; [|reflexivity]. rewrite K1, <- NT. apply dec_whole; assumption. }
  exists (DtoaSpec.value 10 ds), (nv - len ds). split; [|reflexivity].
  destruct (split_digits 1 _ T) as [T1 T2].
  replace (DtoaSpec.value 10 ds) with (number_of 10 (take 1 (text ds) ++ drop 1 (text ds))) by (rewrite take_drop; exact NT).
  replace (nv - len ds) with ((nv - 1) - len (drop 1 (text ds))) by (rewrite drop_len; lia).
  apply dec_point; [rewrite take_drop; exact NEt|exact T1|exact T2|exact X].
Qed.

Section Trip.
Variables (id_start id_continue : Z -> bool).
Hypothesis W : words id_start id_continue.

Lemma trip_fin : forall g m e t, valid (Fin g m e) -> e <= 1 \/ 23 <= e ->
  number_to_string (Fin g m e) = Some t -> string_to_number id_start id_continue t = Fin g m e.
Proof.
  intros g m e t V H E. destruct (C97_text_partial g m e V H) as (ds & nv & E' & TD & RB & _).
  destruct (C97_buffer _ V) as (t' & E'' & B). rewrite E in E', E''. injection E' as ->. injection E'' as <-.
  destruct (layout_decimal ds nv TD) as (D & X & DE & Q).
  assert (LW : len (string_layout ds nv) <= 19000).
  { unfold len. destruct g; cbn [signed length] in B; lia. }
  pose proof (convert_decimal id_start id_continue W [] (if g then [45] else []) g _ D X []
    ltac:(constructor) ltac:(destruct g; constructor) DE LW ltac:(constructor)) as C.
  rewrite app_nil_r in C. cbn [app] in C.
  replace (signed g (string_layout ds nv)) with ((if g then [45] else []) ++ string_layout ds nv)
    by (destruct g; reflexivity).
  rewrite C. symmetry. apply dec_double_only; [eapply decimal_nonneg; exact DE|].
  cbn [rounds]. split; [reflexivity|]. split; [exact V|].
  assert (RR : rounds g (decimal_value ds nv) (Fin g m e)) by (cbn [rounds]; auto).
  apply (rounds_eq g _ (dec_q D X)) in RR; [|symmetry; exact Q]. exact (proj2 (proj2 RR)).
Qed.
End Trip.
