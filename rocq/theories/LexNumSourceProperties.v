(** * Properties of the numeric literals of programs *)
Require Import ZArith QArith List Bool Lia.
From Verif Require Import DtoaModel DtoaSpec LexNumModel LexNumSpec LexNumRound LexNumScan LexNumString LexNumConvert
  LexNumBig LexNumSourceSpec LexNumSource LexNumSourceLex LexNumSourceMain.
From Verif Require LexNumProperties.
From Verif Require StrModel StrSpec BigModel BigSpec.
Import ListNotations.
Local Open Scope Z_scope.

Notation ascii_start := LexNumProperties.ascii_start.
Notation ascii_words := LexNumProperties.ascii_words.

Lemma good_follow : forall id_start r, good id_start r <->
  (forall c t, r = c :: t -> ~ digit_in 10 c /\ id_start c = false).
Proof.
  intros id_start r. split.
  - intros [A B] c t ->. cbn [begins] in *. split; [|exact B]. intros D. apply digit_ten in D. congruence.
  - intros H. destruct r as [|c t]; [split; reflexivity|]. destruct (H c t eq_refl) as [A B]. split; [|exact B].
    cbn [begins]. destruct (is_digit c) eqn:E; [|reflexivity]. exfalso. apply A. apply digit_ten. exact E.
Qed.

Lemma token_of : forall id_start id_continue st s w r x, words id_start id_continue -> s = w ++ r -> literal st w x ->
  good id_start r -> (forall iw, source_int st w iw -> begins (Z.eqb 46) r = false) -> literal_token id_start st s w r x.
Proof.
  intros i c st s w r x W E L G ND. split; [exact E|exact L|apply good_follow; exact G|].
  eapply longest_holds; eassumption.
Qed.

(** ** C105: what is read is the longest literal *)
Theorem C105_sound_partial : forall id_start id_continue strict s dec v r, words id_start id_continue ->
  number_head s -> ~ octal_point s ->
  lex_number id_start (Mode false false strict) s = Some (dec, v, r) ->
  exists w x, literal_token id_start strict s w r x /\ (fits w x -> means x v).
Proof.
  intros i c st s dec v r W H N E. destruct (source_sound i st s dec v r H N E) as (w & x & Q & L & G & F & ND).
  exists w, x. split; [|exact F]. eapply token_of; eassumption.
Qed.
Print Assumptions C105_sound_partial.

(** ... and every literal is read. *)
Theorem C105_complete_partial : forall id_start id_continue strict s w r x, words id_start id_continue ->
  literal_token id_start strict s w r x -> ~ octal_point s -> ~ legacy_separated w ->
  exists dec v, lex_number id_start (Mode false false strict) s = Some (dec, v, r) /\ (fits w x -> means x v).
Proof.
  intros i c st s w r x W [-> L F LG] NO NS. apply (source_complete i c W st w x r); try assumption.
  - apply good_follow. exact F.
  - intros iw I. destruct r as [|d r]; [reflexivity|]. cbn [begins]. destruct (Z.eqb_spec 46 d) as [<-|]; [|reflexivity].
    exfalso. assert (P : literal st (w ++ [46]) (MNum (dec_q (number_of 10 (iw ++ [])) (0 - len [])))).
    { apply (lit_point st w iw [] [] [] 0); [exact I|left; auto|constructor]. }
    specialize (LG (w ++ [46]) r _ ltac:(rewrite <- app_assoc; reflexivity) P).
    unfold len in LG. rewrite app_length in LG. cbn [length] in LG. lia.
Qed.
Print Assumptions C105_complete_partial.

Ltac dig := vm_compute; reflexivity.
Ltac not_digit := let H := fresh in intros H; vm_compute in H; discriminate.

(** 1_0.2_5e-1+1, 077 and 0b1_1n *)
Example C105_witness :
  literal_token ascii_start true [49; 95; 48; 46; 50; 95; 53; 101; 45; 49; 43; 49] [49; 95; 48; 46; 50; 95; 53; 101; 45; 49]
    [43; 49] (MNum (dec_q 1025 (-3))) /\
  fits [49; 95; 48; 46; 50; 95; 53; 101; 45; 49] (MNum (dec_q 1025 (-3))) /\
  ~ octal_point [49; 95; 48; 46; 50; 95; 53; 101; 45; 49; 43; 49] /\
  ~ legacy_separated [49; 95; 48; 46; 50; 95; 53; 101; 45; 49] /\
  literal_token ascii_start false [48; 55; 55] [48; 55; 55] [] (MNum (inject_Z 63)) /\
  literal_token ascii_start true [48; 98; 49; 95; 49; 110] [48; 98; 49; 95; 49; 110] [] (MBig 3).
Proof.
  assert (S10 : separated 10 [49; 95; 48] [49; 48]) by (apply sep_under; [dig|apply sep_one; dig]).
  assert (S25 : separated 10 [50; 95; 53] [50; 53]) by (apply sep_under; [dig|apply sep_one; dig]).
  split; [|split; [|split; [|split; [|split]]]].
  - eapply (token_of _ _ _ _ _ _ _ ascii_words); [reflexivity| |split; reflexivity|intros; reflexivity].
    apply (lit_point true [49; 95; 48] [49; 48] [50; 95; 53] [50; 53] [101; 45; 49] (-1)).
    + constructor. constructor; [exact S10|lia].
    + right. exact S25.
    + apply (sexp_some 101 [45] true [49] [49]); [auto|constructor|constructor; dig].
  - split; [vm_compute; discriminate|]. intros [(p & b & u & P & Q)|(u & Q & _)]; [|discriminate].
    destruct (prefix_head _ _ P) as (c & ->). discriminate.
  - intros (u & c & t & Q & _). discriminate.
  - intros (u & t & Q & _). discriminate.
  - eapply (token_of _ _ _ _ _ _ _ ascii_words); [reflexivity| |split; reflexivity|intros; reflexivity].
    apply (lit_octal false [55; 55]); [reflexivity|discriminate|]. repeat (constructor; [dig|]). constructor.
  - eapply (token_of _ _ _ _ _ _ _ ascii_words); [reflexivity| |split; reflexivity|intros; reflexivity].
    apply (lit_radix_big true [48; 98] 2 [49; 95; 49] [49; 49]); [left; auto|].
    apply sep_under; [dig|apply sep_one; dig].
Qed.

Lemma octal_token : forall t, good ascii_start t -> literal_token ascii_start false ([48; 49; 48] ++ t) [48; 49; 48] t (MNum (inject_Z 8)).
Proof.
  intros t G. eapply (token_of _ _ _ _ _ _ _ ascii_words); [reflexivity| |exact G|].
  - apply (lit_octal false [49; 48]); [reflexivity|discriminate|]. repeat (constructor; [dig|]). constructor.
  - intros iw I. exfalso. inversion I as [u w P|w _ D N]; subst.
    + inversion P; subst. contradiction.
    + apply N. repeat (constructor; [dig|]). constructor.
Qed.

(** 010.5 is 8 followed by .5; the code reads one number. *)
Theorem C105_octal_refuted : exists s w r x dec v,
  literal_token ascii_start false s w r x /\ r <> [] /\
  lex_number ascii_start (Mode false false false) s = Some (dec, v, []).
Proof.
  exists [48; 49; 48; 46; 53], [48; 49; 48], [46; 53], (MNum (inject_Z 8)). do 2 eexists.
  split; [apply (octal_token [46; 53]); split; reflexivity|]. split; [discriminate|]. reflexivity.
Qed.
Print Assumptions C105_octal_refuted.

(** 010.a, a property of 8, is an error in the code. *)
Theorem C105_octal_property_refuted : exists s w r x,
  literal_token ascii_start false s w r x /\ lex_number ascii_start (Mode false false false) s = None.
Proof.
  exists [48; 49; 48; 46; 97], [48; 49; 48], [46; 97], (MNum (inject_Z 8)).
  split; [apply (octal_token [46; 97]); split; reflexivity|]. reflexivity.
Qed.
Print Assumptions C105_octal_property_refuted.

(** 09.5_1 is an error in the code. *)
Theorem C105_separated_refuted : exists s x,
  literal_token ascii_start false s s [] x /\ ~ octal_point s /\ lex_number ascii_start (Mode false false false) s = None.
Proof.
  exists [48; 57; 46; 53; 95; 49]. eexists. split; [|split; [|reflexivity]].
  - eapply (token_of _ _ _ _ _ _ _ ascii_words); [reflexivity| |split; reflexivity|intros; reflexivity].
    apply (lit_point false [48; 57] [48; 57] [53; 95; 49] [53; 49] [] 0).
    + apply int_nonoctal; [reflexivity|repeat (constructor; [dig|]); constructor|]. intros D.
      inversion D as [|? ? D1 _]. vm_compute in D1. discriminate.
    + right. apply sep_under; [dig|apply sep_one; dig].
    + constructor.
  - intros (u & c & t & Q & N & D & _). destruct u as [|d u]; [contradiction|]. injection Q as <- _.
    inversion D as [|? ? D1 _]. vm_compute in D1. discriminate.
Qed.
Print Assumptions C105_separated_refuted.

(** 0x200000000000011 is rounded after every digit. *)
Theorem C105_radix_refuted : exists s x dec v,
  literal_token ascii_start true s s [] x /\ lex_number ascii_start (Mode false false true) s = Some (dec, v, []) /\
  ~ means x v.
Proof.
  exists ([48; 120] ++ [50; 48; 48; 48; 48; 48; 48; 48; 48; 48; 48; 48; 48; 49; 49]).
  exists (MNum (inject_Z 0x200000000000011)). do 2 eexists. split; [|split; [reflexivity|]].
  - eapply (token_of _ _ _ _ _ _ _ ascii_words); [rewrite app_nil_r; reflexivity| |split; reflexivity|intros; reflexivity].
    apply (lit_radix true [48; 120] 16 _ [50; 48; 48; 48; 48; 48; 48; 48; 48; 48; 48; 48; 48; 49; 49]); [right; right; auto|].
    apply separated_plain; [repeat (constructor; [dig|]); constructor|discriminate].
  - cbn [means]. intros R. apply int_double_only in R; [|lia]. revert R. apply LexNumProperties.num_differ.
    vm_compute. reflexivity.
Qed.
Print Assumptions C105_radix_refuted.
