(** The JSON lexer on JSON lexemes. *)
From Coq Require Import List ZArith Bool Lia String.
From Verif Require Import StrModel StrProofs UriProofs JsonModel JsonSpec.
Import ListNotations.
Local Open Scope Z_scope.

Ltac zb := repeat match goal with
  | H : context [Z.eqb ?a ?b] |- _ => destruct (Z.eqb_spec a b)
  | |- context [Z.eqb ?a ?b] => destruct (Z.eqb_spec a b)
  | H : context [Z.leb ?a ?b] |- _ => destruct (Z.leb_spec a b)
  | |- context [Z.leb ?a ?b] => destruct (Z.leb_spec a b)
  | H : context [Z.ltb ?a ?b] |- _ => destruct (Z.ltb_spec a b)
  | |- context [Z.ltb ?a ?b] => destruct (Z.ltb_spec a b)
  end; cbn [andb orb negb] in *; try lia; try congruence.

Lemma leading_range c : is_leading c = true <-> 0xd800 <= c <= 0xdbff.
Proof. unfold is_leading. rewrite andb_true_iff, !Z.leb_le. tauto. Qed.
Lemma trailing_range c : is_trailing c = true <-> 0xdc00 <= c <= 0xdfff.
Proof. unfold is_trailing. rewrite andb_true_iff, !Z.leb_le. tauto. Qed.

Lemma is_leading_false c : c < 0xd800 \/ 0xdbff < c -> is_leading c = false.
Proof. intros H. destruct (is_leading c) eqn:E; [apply leading_range in E; lia|reflexivity]. Qed.
Lemma is_trailing_false c : c < 0xdc00 \/ 0xdfff < c -> is_trailing c = false.
Proof. intros H. destruct (is_trailing c) eqn:E; [apply trailing_range in E; lia|reflexivity]. Qed.

Lemma get_plain c r : c < 0xd800 -> c <> 13 -> get (c :: r) = (c, r).
Proof. intros H N. cbn [get]. rewrite is_leading_false by lia. destruct (Z.eqb_spec c 13); [lia|reflexivity]. Qed.

Lemma get_len s c r : get s = (c, r) -> (List.length r <= List.length s)%nat /\ (s <> [] -> (List.length r < List.length s)%nat).
Proof.
  destruct s as [|x s]; cbn [get]; intros H.
  - inversion H; subst. split; [lia|congruence].
  - cbn [List.length].
    assert (List.length r <= List.length s)%nat; [|split; intros; lia].
    destruct (is_leading x).
    + destruct s as [|t s']; [inversion H; subst; cbn; lia|]. destruct (is_trailing t); inversion H; subst; cbn [List.length]; lia.
    + destruct (x =? 13).
      * destruct s as [|t s']; [inversion H; subst; cbn; lia|]. destruct (t =? 10); inversion H; subst; cbn [List.length]; lia.
      * inversion H; subst; lia.
Qed.

(** [get] only fails at the end when the units are code units *)
Definition units_ok (s : str) : Prop := Forall (fun c => 0 <= c <= 0xffff) s.

Lemma pair_range h l : 0xd800 <= h <= 0xdbff -> 0xdc00 <= l <= 0xdfff ->
  0x10000 <= pair_to_uc h l <= 0x10ffff /\ append_uc [] (pair_to_uc h l) = [h; l].
Proof.
  intros H L. assert (pair_to_uc h l = (h - 0xd800) * 1024 + (l - 0xdc00) + 0x10000) as E.
  { unfold pair_to_uc. rewrite lor_add by (change (2 ^ 10) with 1024; lia). reflexivity. }
  split; [rewrite E; lia|]. unfold append_uc. rewrite E.
  destruct (Z.ltb_spec 0xffff ((h - 0xd800) * 1024 + (l - 0xdc00) + 0x10000)); [|lia].
  unfold uc_to_pair. rewrite Z.shiftr_div_pow2 by lia. change 0x3ff with (Z.ones 10).
  rewrite land_low by lia. change (2 ^ 10) with 1024. cbn [app].
  f_equal; [|f_equal].
  - replace ((h - 0xd800) * 1024 + (l - 0xdc00) + 0x10000 - 0x10000) with ((l - 0xdc00) + (h - 0xd800) * 1024) by lia.
    rewrite Z.div_add, Z.div_small by lia. lia.
  - replace ((h - 0xd800) * 1024 + (l - 0xdc00) + 0x10000 - 0x10000) with ((l - 0xdc00) + (h - 0xd800) * 1024) by lia.
    rewrite Z.mod_add, Z.mod_small by lia. lia.
Qed.

Lemma append_uc_app acc c : append_uc acc c = acc ++ append_uc [] c.
Proof. unfold append_uc. destruct (_ <? _); [destruct (uc_to_pair c)|]; reflexivity. Qed.

Lemma append_small acc c : c <= 0xffff -> append_uc acc c = acc ++ [c].
Proof. intros H. unfold append_uc. destruct (Z.ltb_spec 0xffff c); [lia|reflexivity]. Qed.

(** ** White space *)
Lemma ws_white c : ws c -> is_white_space c = true.
Proof. unfold ws. intros H. decompose [or] H; subst; reflexivity. Qed.

Lemma skip_ws : forall n w s err fuel,
  (List.length w <= n)%nat -> spaces w -> (List.length w < fuel)%nat ->
  (forall d, In d [-1; 47] \/ is_white_space d = true -> fst (get s) <> d) \/ s = [] ->
  skip_space fuel (w ++ s) err = LOk (fst (get s), s, snd (get s), err).
Proof.
  induction n; intros w s err fuel L W F Hs.
  - destruct w; [|cbn in L; lia]. destruct fuel; [lia|]. cbn [skip_space app].
    destruct (get s) as [c r] eqn:G. cbn [fst snd] in *. destruct Hs as [Hs | ->].
    + destruct (Z.eqb_spec c (-1)); [exfalso; apply (Hs (-1)); cbn; auto|].
      destruct (Z.eqb_spec c 47); [exfalso; apply (Hs 47); cbn; auto|].
      destruct (is_white_space c) eqn:E; [exfalso; apply (Hs c); cbn; auto|reflexivity].
    + cbn in G. inversion G; subst. reflexivity.
  - destruct w as [|c w]; [apply (IHn [] s err fuel); cbn; auto; lia|].
    destruct fuel as [|fuel]; [lia|]. cbn [List.length] in L, F. inversion W as [|? ? Wc Ww]; subst.
    assert (G : exists d w', get ((c :: w) ++ s) = (d, w' ++ s) /\ ws d /\ spaces w' /\ (List.length w' <= List.length w)%nat).
    { cbn [app get]. assert (c < 100) by (unfold ws in Wc; lia). rewrite is_leading_false by lia.
      destruct (Z.eqb_spec c 13).
      - destruct w as [|d w].
        + cbn [app]. destruct s as [|x s]; [exists 10, []; cbn; repeat split; auto; unfold ws; auto|].
          destruct (Z.eqb_spec x 10).
          * exfalso. destruct Hs as [Hs|]; [|discriminate]. subst x. apply (Hs 10); [right; reflexivity|reflexivity].
          * exists 10, []; cbn; repeat split; auto; unfold ws; auto.
        + cbn [app]. inversion Ww; subst. destruct (Z.eqb_spec d 10).
          * exists 10, w. cbn [List.length]. repeat split; auto; unfold ws; auto; lia.
          * exists 10, (d :: w). repeat split; auto. unfold ws; auto.
      - exists c, w. repeat split; auto. }
    destruct G as (d & w' & G & Wd & Ww' & L').
    cbn [skip_space]. rewrite G.
    assert (d <> -1 /\ d <> 47) as [N1 N2] by (unfold ws in Wd; lia).
    destruct (Z.eqb_spec d (-1)); [congruence|]. destruct (Z.eqb_spec d 47); [congruence|].
    rewrite (ws_white _ Wd). apply IHn; auto; lia.
Qed.

(** ** Strings *)
Lemma hexd_digit c n : hexd c n -> is_xdigit c = true /\ hex_val c = n /\ 0 <= n < 16 /\ 48 <= c <= 102.
Proof.
  unfold hexd, is_xdigit, hex_val. intros H.
  repeat match goal with |- context [if ?b then _ else _] => destruct b eqn:? end; zb.
  all: repeat split; lia.
Qed.

Lemma hex4 a b c d a' b' c' d' r app :
  hexd a a' -> hexd b b' -> hexd c c' -> hexd d d' ->
  exists app', hex_digits false 4 (a :: b :: c :: d :: r) 0 app =
    (4096 * a' + 256 * b' + 16 * c' + d', false, app', r).
Proof.
  intros A B C D.
  apply hexd_digit in A, B, C, D.
  destruct A as (A1 & A2 & A3 & A4), B as (B1 & B2 & B3 & B4), C as (C1 & C2 & C3 & C4), D as (D1 & D2 & D3 & D4).
  cbn [hex_digits]. rewrite (get_plain a) by lia. cbv beta iota. rewrite A1.
  rewrite (get_plain b) by lia. cbv beta iota. rewrite B1.
  rewrite (get_plain c) by lia. cbv beta iota. rewrite C1.
  rewrite (get_plain d) by lia. cbv beta iota. rewrite D1.
  eexists. f_equal. f_equal. f_equal.
  rewrite A2, B2, C2, D2. rewrite !lor_add by (change (2 ^ 4) with 16; lia). change (2 ^ 4) with 16. lia.
Qed.

Lemma lex_string_chars : forall n t v rest fuel acc err,
  (List.length t <= n)%nat -> chars t v -> (List.length t < fuel)%nat ->
  lex_string 34 fuel (t ++ 34 :: rest) acc err = LOk (acc ++ v, err, rest).
Proof.
  induction n; intros t v rest fuel acc err L C F.
  - destruct t; [|cbn in L; lia]. inversion C; subst. destruct fuel; [lia|]. cbn [lex_string app].
    rewrite get_plain by lia. cbn. rewrite app_nil_r. reflexivity.
  - inversion C as [|c t' v' R N1 N2 C'|c w t' v' E C'|a b c d a' b' c' d' t' v' A B C0 D C']; subst.
    + apply (IHn [] [] rest fuel acc err); cbn; auto; lia.
    + destruct fuel as [|fuel]; [lia|]. cbn [List.length] in L, F.
      assert (K : (is_leading c = true /\ exists d t2 v2, t' = d :: t2 /\ v' = d :: v2 /\ 0xdc00 <= d <= 0xdfff /\ chars t2 v2)
               \/ exists r, get ((c :: t') ++ 34 :: rest) = (c, t' ++ 34 :: rest) /\ r = 0).
      { destruct (is_leading c) eqn:Lc.
        - destruct t' as [|d t2].
          + right. exists 0. cbn [app get]. rewrite Lc. cbn. auto.
          + destruct (is_trailing d) eqn:Td.
            * left. split; [reflexivity|]. apply trailing_range in Td.
              inversion C'; subst; try lia. exists d, t2, v. auto.
            * right. exists 0. cbn [app get]. rewrite Lc, Td. auto.
        - right. exists 0. cbn [app get]. rewrite Lc.
          destruct (Z.eqb_spec c 13); [lia|]. auto. }
      destruct K as [(Lc & d & t2 & v2 & -> & -> & Rd & C2)|(r & G & _)].
      * cbn [lex_string]. cbn [app get]. rewrite Lc. rewrite (proj2 (trailing_range d) Rd).
        apply leading_range in Lc. destruct (pair_range c d Lc Rd) as [P1 P2].
        cbn [List.length] in L, F.
        destruct (Z.eqb_spec (pair_to_uc c d) 34); [lia|]. destruct (Z.eqb_spec (pair_to_uc c d) (-1)); [lia|].
        assert (T : is_line_terminator (pair_to_uc c d) = false).
        { unfold is_line_terminator. zb. }
        rewrite T, !andb_false_r. destruct (Z.eqb_spec (pair_to_uc c d) 92); [lia|].
        rewrite (IHn t2 v2) by (auto; lia). rewrite append_uc_app, P2, <- app_assoc. reflexivity.
      * cbn [lex_string]. rewrite G.
        destruct (Z.eqb_spec c 34); [lia|]. destruct (Z.eqb_spec c (-1)); [lia|].
        assert (T : negb (c =? 0x2028) && negb (c =? 0x2029) && is_line_terminator c = false).
        { unfold is_line_terminator. zb. }
        rewrite T. destruct (Z.eqb_spec c 92); [lia|].
        rewrite (IHn t' v') by (auto; lia). rewrite append_small by lia. rewrite <- app_assoc. reflexivity.
    + destruct fuel as [|fuel]; [lia|]. cbn [List.length] in L, F.
      unfold short_escape in E. cbn in E.
      assert (Ec : c < 200 /\ c <> 13) by (decompose [or] E; try tauto; match goal with H : (_, _) = _ |- _ => inversion H; subst; lia end).
      cbn [lex_string]. cbn [app]. rewrite get_plain by lia.
      cbn [Z.eqb Pos.eqb negb andb is_line_terminator orb].
      rewrite get_plain by lia.
      decompose [or] E; try tauto; match goal with H : (_, _) = _ |- _ => inversion H; subst; clear H end;
        cbn -[lex_string append_uc]; rewrite (IHn t' v') by (auto; lia);
        rewrite append_small by lia; rewrite <- app_assoc; reflexivity.
    + destruct fuel as [|fuel]; [lia|]. cbn [List.length] in L, F.
      cbn [lex_string]. cbn [app]. rewrite get_plain by lia.
      cbn [Z.eqb Pos.eqb negb andb is_line_terminator orb].
      rewrite get_plain by lia. cbn [Z.eqb Pos.eqb].
      unfold unicode_escape.
      destruct (hexd_digit _ _ A) as (A1 & A2 & A3 & A4), (hexd_digit _ _ B) as (B1 & B2 & B3 & B4), (hexd_digit _ _ C0) as (C1 & C2 & C3 & C4), (hexd_digit _ _ D) as (D1 & D2 & D3 & D4).
      rewrite get_plain by lia. destruct (Z.eqb_spec a 123); [lia|].
      destruct (hex4 a b c d a' b' c' d' (t' ++ 34 :: rest) [] A B C0 D) as [app' Ha]. rewrite Ha.
      cbn [lbind]. destruct (Z.leb_spec 0 (4096 * a' + 256 * b' + 16 * c' + d')); [|lia].
      rewrite orb_false_r. rewrite (IHn t' v') by (auto; lia).
      rewrite append_small by lia. rewrite <- app_assoc. reflexivity.
Qed.

(** ** Numbers *)
Lemma digit_is c : digit c -> is_digit c = true.
Proof. unfold digit, is_digit. intros. zb. Qed.

(** A character that ends a number or a word *)
Definition stop (s : str) : Prop :=
  s = [] \/ exists c r, s = c :: r /\ (ws c \/ c = 44 \/ c = 93 \/ c = 125).

Lemma stop_get s : stop s -> exists c, fst (get s) = c /\ (c = -1 \/ c = 9 \/ c = 10 \/ c = 32 \/ c = 44 \/ c = 93 \/ c = 125).
Proof.
  intros [-> | (c & r & -> & H)].
  - exists (-1). cbn; auto.
  - unfold ws in H. assert (c < 200) by lia. cbn [get]. rewrite is_leading_false by lia.
    destruct (Z.eqb_spec c 13).
    + exists 10. split; [|auto]. destruct r as [|d r]; [reflexivity|]. destruct (d =? 10); reflexivity.
    + exists c. cbn. split; [reflexivity|]. lia.
Qed.

Lemma dec_digits_run : forall ds s fuel dn cs acc,
  Forall digit ds -> (List.length ds < fuel)%nat ->
  is_digit (fst (get s)) = false -> fst (get s) <> 95 ->
  dec_digits false fuel (ds ++ s) dn cs acc =
    LOk (s, dn || negb (match ds with [] => true | _ => false end), cs || negb (match ds with [] => true | _ => false end), acc ++ ds).
Proof.
  induction ds as [|d ds IH]; intros s fuel dn cs acc D F Hs Hu.
  - destruct fuel; [lia|]. cbn [dec_digits app]. destruct (get s) as [c r] eqn:G. cbn [fst] in *.
    destruct (Z.eqb_spec c 95); [congruence|]. rewrite andb_false_r. rewrite Hs.
    cbn [negb]. rewrite !orb_false_r, app_nil_r. reflexivity.
  - destruct fuel as [|fuel]; [lia|]. cbn [List.length] in F. inversion D; subst. cbn [dec_digits app].
    rewrite get_plain by (unfold digit in *; lia). destruct (Z.eqb_spec d 95); [unfold digit in *; lia|].
    rewrite andb_false_r, digit_is by assumption. rewrite IH by (auto; lia).
    cbn [negb]. rewrite !orb_true_r, <- app_assoc. cbn [orb]. reflexivity.
Qed.

Lemma int_digits_run : forall ds s fuel dn cs acc,
  Forall digit ds -> (List.length ds < fuel)%nat ->
  is_digit (fst (get s)) = false -> fst (get s) <> 95 ->
  (ds <> [] \/ (dn = true /\ cs = true)) ->
  int_digits false false fuel 10 (ds ++ s) dn cs acc = LOk (Some (s, acc ++ ds, 10)).
Proof.
  induction ds as [|d ds IH]; intros s fuel dn cs acc D F Hs Hu Hd.
  - destruct fuel; [lia|]. destruct Hd as [|[-> ->]]; [congruence|].
    cbn [int_digits app]. destruct (get s) as [c r] eqn:G. cbn [fst] in *.
    destruct (Z.eqb_spec c 95); [congruence|]. cbn [negb andb].
    unfold digit_in. cbn [Z.eqb Pos.eqb]. rewrite Hs. cbn. rewrite app_nil_r. reflexivity.
  - destruct fuel as [|fuel]; [lia|]. cbn [List.length] in F. inversion D; subst. cbn [int_digits app].
    rewrite get_plain by (unfold digit in *; lia). destruct (Z.eqb_spec d 95); [unfold digit in *; lia|].
    cbn [negb andb]. unfold digit_in at 1. cbn [Z.eqb Pos.eqb]. rewrite digit_is by assumption.
    rewrite IH by (auto; lia). rewrite <- app_assoc. reflexivity.
Qed.

Section Classes.
Variables ids idc : Z -> bool.
Hypothesis CL : id_classes ids idc.

Lemma stop_class s : stop s ->
  let c := fst (get s) in ids c = false /\ idc c = false /\ is_digit c = false /\ c <> 110 /\ c <> 46 /\
    c <> 101 /\ c <> 69 /\ c <> 95 /\ c <> 92 /\ c <> 34.
Proof.
  intros H. destruct (stop_get s H) as (c & -> & Hc). cbv zeta. destruct CL as (C1 & C2 & C3).
  destruct (Z.eqb_spec c (-1)) as [->|N].
  - rewrite C1, C2. repeat split; cbn; lia.
  - destruct (C3 c) as [E1 E2]; [lia|]. rewrite E1, E2.
    decompose [or] Hc; subst; try lia; cbn; repeat split; lia.
Qed.

Lemma number_end_stop is_float acc s : stop s ->
  number_end ids false is_float 10 acc s = (TNumber 10 acc, false, s).
Proof.
  intros H. destruct (stop_class s H) as (A & B & C & D & _). unfold number_end.
  destruct (get s) as [c r]. cbn [fst] in *. destruct (Z.eqb_spec c 110); [congruence|].
  cbn [andb]. rewrite A, C. reflexivity.
Qed.

Lemma exp_end e s fuel acc is_float :
  exp_part e -> stop s -> (List.length e < fuel)%nat ->
  number_exp ids false false is_float fuel acc (e ++ s) = LOk (TNumber 10 (acc ++ e), false, s).
Proof.
  intros E H F. destruct (stop_class s H) as (A & B & C & D & E1 & E2 & E3 & E4 & _).
  destruct E as [-> | (x & sg & r & -> & Hx & Hs & Hr & Dr)].
  - cbn [app]. unfold number_exp. rewrite app_nil_r, (number_end_stop is_float acc s H).
    destruct (get s) as [c q]. cbn [fst] in *.
    destruct (Z.eqb_spec c 101); [congruence|]. destruct (Z.eqb_spec c 69); [congruence|]. reflexivity.
  - unfold number_exp. cbn [app]. rewrite get_plain by lia.
    assert (Ex : (x =? 101) || (x =? 69) = true) by (destruct Hx; subst; reflexivity). rewrite Ex.
    cbn [List.length] in F. rewrite app_length in F.
    assert (K : forall acc', dec_digits false fuel (r ++ s) false false acc' = LOk (s, true, true, acc' ++ r)).
    { intros acc'. rewrite dec_digits_run by (auto; lia). destruct r; [congruence|]. reflexivity. }
    destruct r as [|d r]; [congruence|]. inversion Dr as [|? ? Dd Dr']; subst. unfold digit in Dd.
    destruct Hs as [-> | [-> | ->]].
    + cbn [app] in *. rewrite (get_plain d) by lia.
      destruct (Z.eqb_spec d 43); [lia|]. destruct (Z.eqb_spec d 45); [lia|]. cbn [orb].
      rewrite K. cbn [lbind negb andb]. rewrite number_end_stop by assumption. rewrite <- app_assoc. reflexivity.
    + cbn [app] in *. rewrite (get_plain 43) by lia. cbn [Z.eqb Pos.eqb orb].
      rewrite K. cbn [lbind negb andb]. rewrite number_end_stop by assumption. rewrite <- app_assoc. reflexivity.
    + cbn [app] in *. rewrite (get_plain 45) by lia. cbn [Z.eqb Pos.eqb orb].
      rewrite K. cbn [lbind negb andb]. rewrite number_end_stop by assumption. rewrite <- app_assoc. reflexivity.
Qed.

(** First character of an exponent part followed by a stop *)
Lemma exp_first e s : exp_part e -> stop s ->
  let c := fst (get (e ++ s)) in is_digit c = false /\ c <> 95 /\ c <> 46.
Proof.
  intros E H. destruct (stop_class s H) as (A & B & C & D & E1 & E2 & E3 & E4 & _).
  destruct E as [-> | (x & sg & r & -> & Hx & _)].
  - cbn [app]. auto.
  - cbn [app]. rewrite get_plain by lia. cbn [fst]. destruct Hx; subst; cbn; repeat split; lia.
Qed.

Lemma tail_run f e s fuel acc :
  frac_part f -> exp_part e -> stop s -> (List.length f + List.length e < fuel)%nat ->
  number_tail ids false false fuel 10 acc (f ++ e ++ s) = LOk (TNumber 10 (acc ++ f ++ e), false, s).
Proof.
  intros Hf E H F. destruct (exp_first e s E H) as (X1 & X2 & X3). cbv zeta in *.
  unfold number_tail. cbn [Z.eqb Pos.eqb].
  destruct Hf as [-> | (r & -> & Hr & Dr)].
  - cbn [app]. destruct (get (e ++ s)) as [c q] eqn:G. cbn [fst] in *.
    destruct (Z.eqb_spec c 46); [congruence|].
    apply exp_end; auto.
  - cbn [app]. rewrite (get_plain 46) by lia. cbn [Z.eqb Pos.eqb]. cbn [List.length] in F.
    rewrite dec_digits_run by (auto; lia). cbn [lbind orb negb].
    destruct r as [|d r]; [congruence|]. cbn [negb orb andb].
    rewrite exp_end by (auto; lia). rewrite <- !app_assoc. reflexivity.
Qed.

Lemma number_run t s fuel :
  number t -> stop s -> (List.length t < fuel)%nat ->
  lex_number ids fuel (t ++ s) = LOk (TNumber 10 t, false, s).
Proof.
  intros (i & f & e & -> & Hi & Hf & He) H F. rewrite !app_length in F.
  rewrite <- !app_assoc.
  assert (FX : let c := fst (get (f ++ e ++ s)) in is_digit c = false /\ c <> 95 /\ In c [46; 101; 69; -1; 9; 10; 32; 44; 93; 125]).
  { destruct Hf as [-> | (r & -> & _)].
    - cbn [app]. destruct (exp_first e s He H) as (X1 & X2 & X3). cbv zeta in *. split; [auto|split; [auto|]].
      destruct He as [-> | (x & sg & r & -> & Hx & _)].
      + cbn [app]. destruct (stop_get s H) as (c & -> & Hc). cbn. lia.
      + cbn [app]. rewrite get_plain by lia. cbn. lia.
    - cbn [app]. rewrite get_plain by lia. cbn. lia. }
  cbv zeta in FX. destruct FX as (X1 & X2 & X3).
  assert (R : forall ds, Forall digit ds -> ds <> [] -> ds = i -> 
     number_int ids false false fuel 10 (ds ++ f ++ e ++ s) = LOk (TNumber 10 (ds ++ f ++ e), false, s)).
  { intros ds Dd Nd <-. unfold number_int. rewrite int_digits_run by (auto; lia). cbn [lbind].
    rewrite app_nil_l. apply tail_run; auto; lia. }
  unfold lex_number. destruct Hi as [-> | (d & r & -> & Hd & Dr)].
  - cbn [app]. rewrite get_plain by lia. cbn [Z.eqb Pos.eqb].
    destruct (get (f ++ e ++ s)) as [c q]. cbn [fst] in *.
    assert (In c [46; 101; 69; -1; 9; 10; 32; 44; 93; 125]) by assumption.
    assert (Q : ((c =? 98) || (c =? 66)) = false /\ ((c =? 111) || (c =? 79)) = false /\ ((c =? 120) || (c =? 88)) = false /\ is_octal c = false /\ (c =? 95) = false /\ ((c =? 56) || (c =? 57)) = false).
    { cbn in X3. decompose [or] X3; subst; try tauto; repeat split; reflexivity. }
    destruct Q as (-> & -> & -> & -> & -> & ->).
    apply (R [48]); auto; [repeat constructor; unfold digit; lia|discriminate].
  - cbn [app]. rewrite get_plain by lia.
    destruct (Z.eqb_spec d 46); [lia|]. destruct (Z.eqb_spec d 48); [lia|].
    apply (R (d :: r)); auto; [constructor; [unfold digit; lia|assumption]|discriminate].
Qed.

(** ** Words *)
Lemma word_rest : forall w s fuel acc,
  Forall (fun c => 0 <= c < 128 /\ idc c = true) w -> stop s -> (List.length w < fuel)%nat ->
  id_rest idc fuel (w ++ s) acc = LOk (acc ++ w, false, s).
Proof.
  induction w as [|c w IH]; intros s fuel acc W H F.
  - destruct fuel; [lia|]. destruct (stop_class s H) as (A & B & C & D & E1 & E2 & E3 & E4 & E5 & _).
    cbn [id_rest app]. destruct (get s) as [c r]. cbn [fst] in *.
    destruct (Z.eqb_spec c 92); [congruence|]. rewrite B, app_nil_r. reflexivity.
  - destruct fuel as [|fuel]; [lia|]. cbn [List.length] in F. inversion W as [|? ? [R I] W']; subst.
    cbn [id_rest app].
    assert (c <> 92 /\ c <> 13).
    { destruct CL as (_ & _ & C3). destruct (C3 c R) as [_ E]. rewrite E in I.
      split; intros ->; discriminate I. }
    rewrite get_plain by lia. destruct (Z.eqb_spec c 92); [lia|]. rewrite I.
    rewrite IH by (auto; lia). rewrite append_small by lia. rewrite <- app_assoc. reflexivity.
Qed.

Lemma word_run c w s fuel :
  97 <= c <= 122 -> Forall (fun c => 97 <= c <= 122) w -> stop s -> (List.length w < fuel)%nat ->
  lex_identifier ids idc fuel (c :: w ++ s) = LOk (TIdentifier (c :: w), false, s).
Proof.
  intros Hc W H F. unfold lex_identifier. rewrite get_plain by lia.
  destruct (Z.eqb_spec c 92); [lia|].
  destruct CL as (_ & _ & C3). destruct (C3 c ltac:(lia)) as [E _].
  assert (ids c = true) as -> by (rewrite E; unfold letter; zb).
  rewrite word_rest; auto; try lia.
  - rewrite append_small by lia. reflexivity.
  - eapply Forall_impl; [|exact W]. intros a Ha. cbv beta in Ha. split; [lia|]. destruct (C3 a ltac:(lia)) as [_ E2]. rewrite E2. unfold letter. zb.
Qed.

End Classes.
