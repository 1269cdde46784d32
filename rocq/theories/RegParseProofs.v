(** The parser reads the grammar *)
From Coq Require Import ZArith List Bool Lia ZifyBool Arith.
Import ListNotations.
From Verif Require StrModel.
From Verif Require Import RegModel RegSpec RegBase RegParseModel RegParseSpec.
Local Open Scope Z_scope.

Definition tables_of (P : penv) : tables :=
  {| t_start := fun c => id_start P c = true; t_continue := fun c => id_continue P c = true;
     t_prop := fun n v p x => prop_lookup P n v = Some (p, x) |}.

(** ** digits *)
Lemma hexd_ok : forall c v, hexd c v -> is_xdigit c = true /\ hexval c = v /\ 0 <= v < 16.
Proof.
  unfold hexd, decd, is_xdigit, hexval. intros c v H.
  assert (A : (97 <=? c) && (c <=? 102) = true \/ (97 <=? c) && (c <=? 102) = false) by (destruct ((97 <=? c) && (c <=? 102)); auto).
  assert (B : (65 <=? c) && (c <=? 70) = true \/ (65 <=? c) && (c <=? 70) = false) by (destruct ((65 <=? c) && (c <=? 70)); auto).
  destruct A as [A|A], B as [B|B]; rewrite A, B; lia.
Qed.
Lemma hex4_go : forall w ds, Forall2 hexd w ds -> forall v r,
  hex4 (length w) v (w ++ r) = POk (fold_left (fun a d => a * 16 + d) ds v, r).
Proof.
  induction 1 as [|c d w ds H F IH]; intros v r; auto. cbn [length hex4 app peek drop1].
  destruct (hexd_ok c d H) as (A & B & _). rewrite A, B. cbn [fold_left]. apply IH.
Qed.
Lemma hex4_ok : forall w v r, length w = 4%nat -> hex_text w v -> hex4 4 0 (w ++ r) = POk (v, r).
Proof. intros w v r L (ds & F & ->). rewrite <- L. apply hex4_go. auto. Qed.
Lemma value_mono : forall ds v, Forall (fun d => 0 <= d) ds -> 0 <= v -> v <= fold_left (fun a d => a * 16 + d) ds v.
Proof.
  induction ds as [|d ds IH]; intros v F Hv; cbn [fold_left]; [lia|]. inversion F; subst.
  assert (0 <= v * 16 + d) by lia. specialize (IH (v * 16 + d) ltac:(auto) ltac:(lia)). lia.
Qed.
Lemma value_mono10 : forall ds v, Forall (fun d => 0 <= d) ds -> 0 <= v -> v <= fold_left (fun a d => a * 10 + d) ds v.
Proof.
  induction ds as [|d ds IH]; intros v F Hv; cbn [fold_left]; [lia|]. inversion F; subst.
  assert (0 <= v * 10 + d) by lia. specialize (IH (v * 10 + d) ltac:(auto) ltac:(lia)). lia.
Qed.
Lemma hexd_pos : forall w ds, Forall2 hexd w ds -> Forall (fun d => 0 <= d) ds.
Proof. induction 1; constructor; auto. apply hexd_ok in H. lia. Qed.
Lemma braced_go : forall w ds, Forall2 hexd w ds -> forall v seen r, 0 <= v ->
  fold_left (fun a d => a * 16 + d) ds v <= 0x10ffff -> (w <> [] \/ seen = true) ->
  braced v seen (w ++ 125 :: r) = POk (fold_left (fun a d => a * 16 + d) ds v, r).
Proof.
  induction 1 as [|c d w ds H F IH]; intros v seen r Hv L N.
  - cbn. destruct N as [N| ->]; [congruence|reflexivity].
  - cbn [app braced]. destruct (hexd_ok c d H) as (A & B & C). rewrite A, B.
    replace (c =? 125) with false by (unfold hexd, decd in H; lia).
    cbn [fold_left] in *. pose proof (value_mono ds (v * 16 + d) (hexd_pos _ _ F) ltac:(lia)).
    replace (0x10ffff <? v * 16 + d) with false by lia. apply IH; auto. lia.
Qed.
Lemma number_go : forall w ds, Forall2 decd w ds -> forall lim v r, 0 <= v ->
  fold_left (fun a d => a * 10 + d) ds v <= lim -> ~ starts digit r ->
  number lim v (w ++ r) = POk (fold_left (fun a d => a * 10 + d) ds v, r).
Proof.
  induction 1 as [|c d w ds H F IH]; intros lim v r Hv L N.
  - cbn [app fold_left]. destruct r as [|c r]; [reflexivity|]. cbn [number].
    replace (StrModel.is_digit c) with false; [reflexivity|]. cbn in N. unfold digit in N. unfold StrModel.is_digit. lia.
  - cbn [app number fold_left] in *. destruct H as [H ->].
    replace (StrModel.is_digit c) with true by (unfold StrModel.is_digit; lia).
    assert (Forall (fun d => 0 <= d) ds).
    { clear -F. induction F; constructor; auto. destruct H. lia. }
    pose proof (value_mono10 ds (v * 10 + (c - 48)) ltac:(auto) ltac:(lia)).
    replace (lim <? v * 10 + (c - 48)) with false by lia. apply IH; auto. lia.
Qed.
Lemma dec_pos : forall w v, dec_text w v -> 0 <= v.
Proof.
  intros w v (ds & F & ->). unfold value. apply value_mono10; [|lia].
  induction F; constructor; auto. destruct H. lia.
Qed.
Lemma decimal_ok : forall w v r, w <> [] -> dec_text w v -> v < 2 ^ 63 -> ~ starts digit r -> decimal (w ++ r) = POk (v, r).
Proof.
  intros w v r N (ds & F & E) L Nd. destruct F as [|c d w ds [H ->] F]; [congruence|].
  unfold decimal. cbn [app peek drop1]. replace (StrModel.is_digit c) with true by (unfold StrModel.is_digit; lia).
  unfold value in E. cbn [fold_left] in E. replace (0 * 10 + (c - 48)) with (c - 48) in E by lia. subst v.
  apply number_go; auto; unfold int64_max; lia.
Qed.

Lemma hex_pos : forall w v, hex_text w v -> 0 <= v.
Proof. intros w v (ds & F & ->). apply value_mono; [eapply hexd_pos; eauto|lia]. Qed.

(** ** escapes *)
Lemma pair_ok : forall l t, lead_unit l -> trail_unit t -> pair_to_uc l t = 0x10000 + (l - 0xd800) * 1024 + (t - 0xdc00).
Proof.
  unfold lead_unit, trail_unit, pair_to_uc. intros l t Hl Ht.
  assert (D : Z.land (Z.shiftl (l - 55296) 10) (t - 56320) = 0).
  { apply Z.bits_inj_iff'. intros n Hn. rewrite Z.land_spec, Z.bits_0. destruct (Z_lt_le_dec n 10) as [C|C].
    - rewrite Z.shiftl_spec_low by lia. auto.
    - rewrite (Z.bits_above_log2 (t - 56320) n); [apply andb_false_r|lia|].
      destruct (Z.eq_dec (t - 56320) 0) as [->|Z0]; [cbn; lia|]. apply Z.log2_lt_pow2; [lia|].
      apply Z.lt_le_trans with (2 ^ 10); [lia|]. apply Z.pow_le_mono_r; lia. }
  rewrite <- (Z.lxor_lor _ _ D). rewrite <- Z.add_nocarry_lxor by exact D. rewrite Z.shiftl_mul_pow2 by lia. lia.
Qed.
Lemma hex_lead : forall v, lead_unit v <-> is_lead v = true.
Proof. unfold lead_unit, is_lead. intros. lia. Qed.
Lemma hex_trail : forall v, trail_unit v <-> is_trail v = true.
Proof. unfold trail_unit, is_trail. intros. lia. Qed.

Lemma peek_hex : forall w v r, length w = 4%nat -> hex_text w v -> peek (w ++ r) =? 123 = false.
Proof.
  intros w v r L (ds & F & _). destruct F as [|c d w ds H F]; [discriminate|]. cbn [app peek].
  unfold hexd, decd in H. lia.
Qed.
Lemma uc_seq_ok : forall r w v, ucode false r w v -> uc_seq true (w ++ r) = POk (v, r).
Proof.
  intros r w v H. destruct H as [w v L H A|w l w' t L H Hl L' H' Ht|w v N H B]; unfold uc_seq.
  - rewrite (peek_hex _ _ _ L H), (hex4_ok _ _ _ L H). cbn [pbind].
    destruct (is_lead v) eqn:E; [|reflexivity]. cbn [negb]. apply hex_lead in E. destruct (A E) as [B|[B|[B _]]]; [| |discriminate].
    + destruct ((peek r =? 92) && (peek (drop1 r) =? 117)) eqn:Q; auto.
      destruct r as [|a [|b r]]; cbn in Q; try lia. exfalso. apply B. exists r. f_equal; [lia|]. f_equal. lia.
    + destruct B as (x & y & q & -> & Lx & Hx & Ny). cbn [peek drop1]. cbn [Z.eqb Pos.eqb andb].
      rewrite (hex4_ok _ _ _ Lx Hx). cbn [pbind]. destruct (is_trail y) eqn:Z0; auto. apply hex_trail in Z0. contradiction.
  - rewrite <- app_assoc. rewrite (peek_hex _ _ _ L H), (hex4_ok _ _ _ L H). cbn [pbind].
    apply hex_lead in Hl as Hl'. rewrite Hl'. cbn [negb app peek drop1]. cbn [Z.eqb Pos.eqb andb].
    rewrite (hex4_ok _ _ _ L' H'). cbn [pbind]. apply hex_trail in Ht as Ht'. rewrite Ht'. rewrite pair_ok; auto.
  - cbn [app peek drop1]. cbn [Z.eqb Pos.eqb]. destruct H as (ds & F & ->). rewrite <- app_assoc. cbn [app].
    apply braced_go; auto. lia.
Qed.

Section one.
  Variables (P : penv).
  Notation T := (tables_of P).
  Hypothesis At : ascii_tables T.

  Lemma prop_text_ok : forall alpha w r c, Forall (fun c => letter c \/ (alpha = false /\ digit c) \/ c = 95) w ->
    c = 125 \/ (alpha = true /\ c = 61) ->
    prop_text alpha (w ++ c :: r) = POk (w, c, r).
  Proof.
    intros alpha w r c F Hc. induction F as [|a w H F IH].
    - cbn [app prop_text]. destruct Hc as [->|[-> ->]]; reflexivity.
    - cbn [app prop_text]. unfold letter, digit in H. replace (a =? 125) with false by lia.
      replace (a =? 61) with false by lia. rewrite andb_false_r. cbn [orb].
      assert (C : ctype alpha a = POk true).
      { unfold ctype. replace (255 <? a) with false by lia. f_equal. unfold is_alpha, StrModel.is_digit.
        destruct alpha; cbn [negb andb]; lia. }
      rewrite C. cbn [pbind]. rewrite IH. reflexivity.
  Qed.
  Lemma prop_ok : forall w p v r, uprop T w p v -> prop_escape P (w ++ 125 :: r) = POk (p, v, r).
  Proof.
    intros w p v r H. destruct H as [w p v F L|w x p v F F' L]; unfold prop_escape.
    - rewrite (prop_text_ok true); [|eapply Forall_impl; [|exact F]; cbn; tauto|auto]. cbn [pbind].
      cbn [Z.eqb Pos.eqb]. cbn [pbind]. cbn in L. rewrite L. auto.
    - rewrite <- app_assoc. cbn [app]. rewrite (prop_text_ok true); [|eapply Forall_impl; [|exact F]; cbn; tauto|auto].
      cbn [pbind]. cbn [Z.eqb Pos.eqb].
      rewrite (prop_text_ok false); [|eapply Forall_impl; [|exact F']; cbn; tauto|auto]. cbn [pbind]. cbn in L. rewrite L. auto.
  Qed.

  Lemma not_continue : forall c, t_continue T c -> 0 <= c.
  Proof. destruct At as [A _]. auto. Qed.
  Lemma continue_ascii : forall c, letter c \/ digit c -> t_continue T c.
  Proof. destruct At as (_ & _ & A & _). intros c H. apply A; [unfold letter, digit in H; lia|tauto]. Qed.

  Lemma identity_plain : forall c s, p_u P = false -> 0 <= c -> ~ t_continue T c -> escape P c s = POk (CNormal c, s).
  Proof.
    intros c s U C N. assert (A : ~ letter c /\ ~ digit c). { split; intros K; apply N, continue_ascii; auto. }
    unfold letter, digit in A. unfold escape, identity.
    repeat match goal with |- context[c =? ?k] =>
      replace (c =? k) with false by lia end.
    cbn [orb andb]. rewrite U. replace (c =? -1) with false by lia. reflexivity.
  Qed.
  Lemma identity_syn : forall c s, p_u P = true -> syntax c \/ c = 47 -> escape P c s = POk (CNormal c, s).
  Proof.
    intros c s U H.
    assert (A : In c [94; 36; 92; 46; 42; 43; 63; 40; 41; 91; 93; 123; 125; 124; 47]) by (unfold syntax in H; cbn in *; intuition).
    cbn in A. repeat (destruct A as [<-|A]); try contradiction; unfold escape, identity; rewrite U; reflexivity.
  Qed.

  Lemma escape_ok : forall r w k, esc (p_u P) false T r w k ->
    exists c q, w = c :: q /\ 0 <= c /\ escape P c (q ++ r) = POk (k, r) /\ c <> 98 /\ c <> 66 /\ ~ 49 <= c <= 57 /\ c <> 107.
  Proof.
    intros r w k H.
    destruct H as [| | | | | | | | | | |c L|N|w v L H|w v U L H|w v U H|w p v U H|w p v U H|c U C N|c U S];
      try (eexists _, []; split; [reflexivity|]; split; [lia|]; split; [reflexivity|lia]).
    - exists 99, [c]. split; [reflexivity|]; split; [lia|]; split; [|lia]. cbn [app]. unfold escape. cbn [Z.eqb Pos.eqb peek drop1].
      assert (is_alpha c = true) as -> by (unfold is_alpha; unfold letter in L; lia).
      do 3 f_equal. change 31 with (Z.ones 5). rewrite Z.land_ones by lia. reflexivity.
    - exists 48, []. split; [reflexivity|]; split; [lia|]; split; [|lia]. cbn [app]. unfold escape. cbn [Z.eqb Pos.eqb].
      assert (StrModel.is_digit (peek r) = false) as ->; [|reflexivity].
      destruct r as [|c r]; [reflexivity|]. cbn in N. unfold digit in N. unfold StrModel.is_digit. cbn [peek]. lia.
    - destruct H as (ds & F & ->). destruct F as [|a x w ds Ha F]; [discriminate|]. destruct F as [|b y w ds Hb F]; [discriminate|].
      destruct F; [|discriminate]. exists 120, [a; b]. split; [reflexivity|]; split; [lia|]; split; [|lia]. cbn [app]. unfold escape. cbn [Z.eqb Pos.eqb peek drop1].
      apply hexd_ok in Ha, Hb. destruct Ha as (A1 & A2 & A3), Hb as (B1 & B2 & B3). rewrite A1, B1, A2, B2. cbn [andb].
      unfold value. cbn [fold_left]. do 3 f_equal. 
    - exists 117, w. split; [reflexivity|]; split; [lia|]; split; [|lia]. unfold escape. cbn [Z.eqb Pos.eqb].
      unfold uc_seq. rewrite U. rewrite (hex4_ok _ _ _ L H). reflexivity.
    - exists 117, w. split; [reflexivity|]; split; [lia|]; split; [|lia]. unfold escape. cbn [Z.eqb Pos.eqb]. rewrite U.
      rewrite (uc_seq_ok _ _ _ H). reflexivity.
    - exists 112, (123 :: w ++ [125]). split; [reflexivity|]; split; [lia|]; split; [|lia]. unfold escape. cbn [Z.eqb Pos.eqb app peek drop1 orb andb].
      rewrite <- app_assoc. cbn [app]. rewrite (prop_ok _ _ _ _ H). reflexivity.
    - exists 80, (123 :: w ++ [125]). split; [reflexivity|]; split; [lia|]; split; [|lia]. unfold escape. cbn [Z.eqb Pos.eqb app peek drop1 orb andb].
      rewrite <- app_assoc. cbn [app]. rewrite (prop_ok _ _ _ _ H). reflexivity.
    - exists c, []. assert (A : ~ letter c /\ ~ digit c). { split; intros K; apply N, continue_ascii; auto. }
      unfold letter, digit in A. split; [reflexivity|]; split; [lia|]; split; [|lia]. apply identity_plain; auto.
    - exists c, []. cbn [app]. rewrite identity_syn by auto. unfold syntax in S. cbn in S. split; [reflexivity|]; intuition lia.
  Qed.

  (** ** classes *)
  Lemma catom_ok : forall r w k, catom (p_u P) false T r w k ->
    w <> [] /\ peek w <> 93 /\ class_atom P (w ++ r) = POk (k, r) /\ copied P k = k /\ (forall c, k = CNormal c -> 0 <= c).
  Proof.
    intros r w k H. destruct H as [c C N1 N2| |U W|w k H W].
    - split; [discriminate|]. split; [cbn; lia|]. split; [|split; [reflexivity|intros ? [= <-]; auto]].
      unfold class_atom. cbn [app peek drop1]. replace (c =? 92) with false by lia. auto.
    - split; [discriminate|]. split; [cbn; lia|]. split; [reflexivity|split; [reflexivity|intros ? [= <-]; lia]].
    - discriminate.
    - split; [discriminate|]. split; [cbn; lia|].
      assert (Pos : forall c, k = CNormal c -> 0 <= c).
      { intros c ->. clear W. inversion H; subst; try lia.
        all: try (apply Z.mod_pos_bound; lia).
        all: try (match goal with K : hex_text _ _ |- _ => exact (hex_pos _ _ K) end).
        all: try (match goal with K : ucode _ _ _ _ |- _ => inversion K; subst end).
        all: try (match goal with K : hex_text _ ?v |- 0 <= ?v => exact (hex_pos _ _ K) end).
        all: unfold lead_unit, trail_unit, syntax in *; cbn [In] in *; intuition lia. }
      destruct (escape_ok _ _ _ H) as (c & q & -> & C0 & E & Nb & _). split; [|split; auto].
      + unfold class_atom. cbn [app peek drop1]. cbn [Z.eqb Pos.eqb]. replace (c =? 98) with false by lia. auto.
      + destruct W as [W|W]; [discriminate|]. destruct k; auto; contradiction.
  Qed.
  Lemma items_ok : forall r w l, ranges (p_u P) false T r w l -> forall f, (length w < f)%nat ->
    class_items P f (w ++ 93 :: r) = POk (l, r).
  Proof.
    intros r w l H. induction H as [|w k x l Ca R IH Sep|w lo w' hi x l Ca Cb Le R IH]; intros f Hf.
    - destruct f; [lia|]. reflexivity.
    - destruct f; [lia|]. destruct (catom_ok _ _ _ Ca) as (Nw & N93 & E & Cp & _).
      destruct w as [|c w]; [congruence|]. cbn [peek] in N93.
      rewrite app_length in Hf. cbn [length] in Hf.
      cbn [class_items app]. replace (c =? 93) with false by lia.
      change (c :: (w ++ x) ++ 93 :: r) with ((c :: w ++ x) ++ 93 :: r).
      replace ((c :: w ++ x) ++ 93 :: r) with ((c :: w) ++ x ++ 93 :: r) by (cbn [app]; rewrite app_assoc; auto).
      rewrite E. cbn [pbind].
      destruct Sep as [[-> [W|[d ->]]]|Ns]; [discriminate| |].
      + cbn [app peek drop1]. cbn [Z.eqb Pos.eqb].
        change (45 :: 93 :: r) with ([45] ++ 93 :: r). rewrite IH by (cbn [length] in *; lia). reflexivity.
      + replace (peek (x ++ 93 :: r) =? 45) with false.
        * rewrite IH by lia. cbn [pbind]. rewrite Cp. auto.
        * destruct x as [|y x]; [reflexivity|]. cbn in *. lia.
    - destruct f; [lia|]. destruct (catom_ok _ _ _ Ca) as (Nw & N93 & E & _ & C0). destruct (catom_ok _ _ _ Cb) as (Nw' & N93' & E' & _ & C1).
      destruct w as [|c w]; [congruence|]. cbn [peek] in N93. destruct w' as [|d w']; [congruence|]. cbn [peek] in N93'.
      rewrite app_length in Hf. cbn [length] in Hf. rewrite app_length in Hf. cbn [length] in Hf.
      cbn [class_items app]. replace (c =? 93) with false by lia.
      match goal with |- context[class_atom P ?y] =>
        replace y with ((c :: w) ++ 45 :: (d :: w') ++ x ++ 93 :: r)
          by (cbn [app]; rewrite <- !app_assoc; cbn [app]; rewrite <- !app_assoc; auto) end.
      rewrite E. cbn [pbind peek drop1]. cbn [Z.eqb Pos.eqb]. cbn [app peek]. replace (d =? 93) with false by lia.
      change (d :: w' ++ x ++ 93 :: r) with ((d :: w') ++ x ++ 93 :: r). rewrite E'. cbn [pbind].
      specialize (C0 _ eq_refl). specialize (C1 _ eq_refl).
      replace ((lo <? 0) || (hi <? 0)) with false by lia. replace (hi <? lo) with false by lia.
      rewrite IH by lia. reflexivity.
  Qed.
  Lemma class_ok : forall r w a, cclass (p_u P) false T r w a ->
    exists q, w = 91 :: q /\ class P (q ++ r) = POk (a, r).
  Proof.
    intros r w a H. destruct H as [w l Ns R|w l R]; eexists; (split; [reflexivity|]); unfold class.
    - rewrite <- app_assoc. cbn [app].
      assert (peek (w ++ 93 :: r) =? 94 = false) as ->.
      { destruct w as [|c w]; [reflexivity|]. cbn in *. lia. }
      rewrite (items_ok _ _ _ R); [reflexivity|]. rewrite app_length. lia.
    - cbn [app peek drop1]. cbn [Z.eqb Pos.eqb]. rewrite <- app_assoc. cbn [app].
      rewrite (items_ok _ _ _ R); [reflexivity|]. rewrite app_length. lia.
  Qed.

  (** ** names *)
  Lemma nchar_ok : forall r w c, nchar false r w c -> t_continue T c -> w <> [] /\ peek w <> 62 /\ peek w <> -1 /\ uc (w ++ r) = POk (c, r).
  Proof.
    intros r w c H K. pose proof (not_continue _ K) as C0.
    assert (N : c <> 92 /\ c <> 62).
    { destruct At as (_ & _ & A & _). split; intros ->; [destruct (A 92 ltac:(lia)) as [B _]|destruct (A 62 ltac:(lia)) as [B _]];
        specialize (B K); unfold letter, digit in B; lia. }
    destruct H as [c|w v H].
    - split; [discriminate|]. cbn [peek]. split; [lia|]. split; [lia|]. unfold uc. cbn [app peek drop1].
      replace (c =? 92) with false by lia. replace (c =? -1) with false by lia. auto.
    - split; [discriminate|]. cbn [peek]. split; [lia|]. split; [lia|]. unfold uc. cbn [app peek drop1]. cbn [Z.eqb Pos.eqb].
      rewrite (uc_seq_ok _ _ _ H). auto.
  Qed.
  Lemma npart_ok : forall r w m, npart false T r w m -> forall f, (length w < f)%nat ->
    name_rest P f (w ++ 62 :: r) = POk (m, r).
  Proof.
    intros r w m H. induction H as [|w c x m H K N IH]; intros f Hf.
    - destruct f; [lia|]. reflexivity.
    - destruct f; [lia|]. destruct (nchar_ok _ _ _ H K) as (Nw & N62 & N1 & E).
      destruct w as [|d w]; [congruence|]. cbn [peek] in N62, N1. rewrite app_length in Hf. cbn [length] in Hf.
      cbn [name_rest app peek]. replace (d =? 62) with false by lia. replace (d =? -1) with false by lia.
      match goal with |- context[uc ?y] => replace y with ((d :: w) ++ x ++ 62 :: r) by (cbn [app]; rewrite app_assoc; auto) end.
      rewrite E. cbn [pbind]. cbn in K. rewrite K. rewrite IH by lia. reflexivity.
  Qed.
  Lemma name_ok : forall r w m, gname false T r w m ->
    name P (w ++ r) = POk (m, r) /\ exists q, w = 60 :: q /\ peek (q ++ r) <> 61 /\ peek (q ++ r) <> 33.
  Proof.
    intros r w m H. destruct H as [w c x m H S N]. pose proof At as (_ & SC & CA & _).
    destruct (nchar_ok _ _ _ H (SC _ S)) as (Nw & N62 & N1 & E). split.
    - unfold name. cbn [app peek drop1]. cbn [Z.eqb Pos.eqb]. rewrite <- !app_assoc. cbn [app]. rewrite E. cbn [pbind].
      cbn in S. rewrite S. rewrite (npart_ok _ _ _ N); [reflexivity|]. rewrite app_length. lia.
    - eexists. split; [reflexivity|]. destruct w as [|d w]; [congruence|]. cbn [app peek].
      inversion H; subst; [|lia]. destruct (CA 61 ltac:(lia)) as [A _], (CA 33 ltac:(lia)) as [B _].
      apply SC in S. split; intros ->; [apply A in S|apply B in S]; unfold letter, digit in S; lia.
  Qed.

  (** ** quantifiers *)
  Definition follow (r : list Z) : Prop := ~ starts (fun c => In c [63; 43; 42; 123]) r.
  Lemma follow_peek : forall r, follow r -> peek r <> 63 /\ peek r <> 43 /\ peek r <> 42 /\ peek r <> 123.
  Proof. intros [|c r] F; unfold follow in F; cbn in *; lia. Qed.
  Lemma qprefix_ok : forall w mn mx, qprefix false w mn mx -> forall r,
    quantifier (w ++ r) = (let '(g, r') := lazy_mark r in POk (mn, mx, g, r')).
  Proof.
    intros w mn mx H r. destruct H as [| | |w v N D W|w v N D W|w v w' v' N D N' D' Le W].
    1-3: unfold quantifier; cbn [app peek drop1]; cbn [Z.eqb Pos.eqb]; destruct (lazy_mark r); auto.
    all: destruct W as [W|W]; [discriminate|].
    - unfold quantifier. cbn [app peek drop1]. cbn [Z.eqb Pos.eqb]. rewrite <- app_assoc. cbn [app].
      rewrite (decimal_ok _ _ _ N D W) by (cbn; unfold digit; lia). cbn [pbind peek drop1]. cbn [Z.eqb Pos.eqb].
      destruct (lazy_mark r); auto.
    - unfold quantifier. cbn [app peek drop1]. cbn [Z.eqb Pos.eqb]. rewrite <- app_assoc. cbn [app].
      rewrite (decimal_ok _ _ _ N D W) by (cbn; unfold digit; lia). cbn [pbind peek drop1]. cbn [Z.eqb Pos.eqb].
      destruct (lazy_mark r); auto.
    - unfold quantifier. cbn [app peek drop1]. cbn [Z.eqb Pos.eqb]. rewrite <- app_assoc. cbn [app].
      rewrite (decimal_ok _ _ _ N D) by (cbn; unfold digit; lia). cbn [pbind peek drop1]. cbn [Z.eqb Pos.eqb].
      rewrite <- app_assoc. cbn [app].
      assert (peek (w' ++ 125 :: r) =? 125 = false) as ->.
      { destruct D' as (ds & F & _). destruct F as [|c d w' ds [F1 _] F]; [congruence|]. cbn [app peek]. lia. }
      rewrite (decimal_ok _ _ _ N' D' W) by (cbn; unfold digit; lia). cbn [pbind peek drop1].
      replace (v' <? v) with false by lia. cbn [Z.eqb Pos.eqb]. destruct (lazy_mark r); auto.
  Qed.
  Lemma quant_ok : forall w mn mx g r, quant false w mn mx g -> follow r -> quantifier (w ++ r) = POk (mn, mx, g, r).
  Proof.
    intros w mn mx g r H F. apply follow_peek in F. destruct F as (F1 & F2 & F3 & F4).
    destruct H as [|w mn mx H|w mn mx H].
    - unfold quantifier. cbn [app].
      replace (peek r =? 63) with false by lia. replace (peek r =? 43) with false by lia.
      replace (peek r =? 42) with false by lia. replace (peek r =? 123) with false by lia. auto.
    - rewrite (qprefix_ok _ _ _ H). unfold lazy_mark. replace (peek r =? 63) with false by lia. auto.
    - rewrite <- app_assoc. rewrite (qprefix_ok _ _ _ H). reflexivity.
  Qed.
End one.
