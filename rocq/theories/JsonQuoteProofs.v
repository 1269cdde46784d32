(** JSON.stringify: the text of a string, and the text of a tree of values. *)
From Coq Require Import List ZArith Bool Lia String.
From Verif Require Import StrModel StrProofs UriProofs UtfProofs JsonModel JsonSpec JsonLexProofs JsonParseProofs.
Import ListNotations.
Local Open Scope Z_scope.
Local Open Scope list_scope.

Definition unit16 (c : Z) : Prop := 0 <= c <= 0xffff.

Lemma hex_char_hexl n : 0 <= n < 16 -> hexl (hex_char_l n) n.
Proof. intros H. unfold hex_char_l, hexl. zb. Qed.

Lemma hex_fields c : 0 <= c <= 0xffff ->
  0 <= Z.shiftr c 12 < 16 /\ 0 <= Z.land (Z.shiftr c 8) 0xf < 16 /\ 0 <= Z.land (Z.shiftr c 4) 0xf < 16 /\ 0 <= Z.land c 0xf < 16 /\
  c = 4096 * Z.shiftr c 12 + 256 * Z.land (Z.shiftr c 8) 0xf + 16 * Z.land (Z.shiftr c 4) 0xf + Z.land c 0xf.
Proof.
  intros H. rewrite !Z.shiftr_div_pow2 by lia.
  change 0xf with (Z.ones 4). rewrite !Z.land_ones by lia.
  change (2 ^ 12) with 4096. change (2 ^ 8) with 256. change (2 ^ 4) with 16.
  Ltac Zify.zify_post_hook ::= Z.div_mod_to_equations. lia.
Qed.

Lemma quote_bmp c s t : unit16 c -> ~ surrogate c \/ (0xd800 <= c <= 0xdbff /\ ~ starts_with_trailing s) \/ 0xdc00 <= c <= 0xdfff ->
  quoted s t -> quoted (c :: s) (quote_uc c ++ t).
Proof.
  intros U K Q. unfold unit16 in U. unfold quote_uc.
  destruct (Z.eqb_spec c 8); [subst; apply Q_named; [unfold named_escape; cbn; tauto|assumption]|].
  destruct (Z.eqb_spec c 9); [subst; apply Q_named; [unfold named_escape; cbn; tauto|assumption]|].
  destruct (Z.eqb_spec c 10); [subst; apply Q_named; [unfold named_escape; cbn; tauto|assumption]|].
  destruct (Z.eqb_spec c 12); [subst; apply Q_named; [unfold named_escape; cbn; tauto|assumption]|].
  destruct (Z.eqb_spec c 13); [subst; apply Q_named; [unfold named_escape; cbn; tauto|assumption]|].
  destruct (Z.eqb_spec c 34); [subst; apply Q_named; [unfold named_escape; cbn; tauto|assumption]|].
  destruct (Z.eqb_spec c 92); [subst; apply Q_named; [unfold named_escape; cbn; tauto|assumption]|].
  assert (NN : forall w, ~ named_escape c w).
  { intros w H. unfold named_escape in H. cbn [In] in H. decompose [or] H; try contradiction; congruence. }
  destruct ((c <? 0x20) || ((0xd800 <=? c) && (c <=? 0xdfff))) eqn:E.
  - destruct (hex_fields c U) as (A & B & D & F & EQ). cbn [app].
    eapply Q_hex; try (apply hex_char_hexl; assumption); [|exact EQ|exact Q].
    unfold surrogate in K. apply orb_prop in E. destruct E as [E|E]; [apply Z.ltb_lt in E; left; split; [lia|exact NN]|].
    apply andb_prop in E. destruct E as [E1 E2]. apply Z.leb_le in E1, E2. right. destruct K as [K|K]; [exfalso; apply K; lia|exact K].
  - apply orb_false_elim in E. destruct E as [E1 E2]. apply Z.ltb_ge in E1.
    rewrite append_small by lia. cbn [app]. apply Q_plain; auto; [lia|].
    unfold surrogate. intros S. rewrite andb_false_iff, !Z.leb_gt in E2. lia.
Qed.

Lemma quote_quoted : forall n s, (List.length s <= n)%nat -> Forall unit16 s -> quoted s (quote_loop n s).
Proof.
  induction n; intros s L F.
  - destruct s; [constructor|cbn in L; lia].
  - destruct s as [|c r]; cbn [quote_loop]; [constructor|].
    inversion F; subst. cbn [List.length] in L.
    destruct r as [|t r'].
    + rewrite <- (app_nil_r (quote_uc c)). apply quote_bmp; [assumption| |constructor].
      unfold surrogate. destruct (Z_le_dec 0xd800 c); [|left; lia]. destruct (Z_le_dec c 0xdfff); [|left; lia].
      right. destruct (Z_le_dec c 0xdbff); [left|right; lia]. split; [lia|]. intros (x & y & X & _). discriminate.
    + destruct (is_leading c && is_trailing t) eqn:E.
      * apply andb_prop in E. destruct E as [E1 E2]. apply leading_range in E1. apply trailing_range in E2.
        destruct (pair_range c t E1 E2) as [R A].
        unfold quote_uc. repeat (match goal with |- context [Z.eqb ?a ?b] => destruct (Z.eqb_spec a b); [lia|] end).
        destruct (Z.ltb_spec (pair_to_uc c t) 0x20); [lia|]. destruct (Z.leb_spec (pair_to_uc c t) 0xdfff); [lia|].
        rewrite andb_false_r. cbn [orb]. rewrite A. cbn [app].
        inversion H2; subst. apply Q_pair; auto. apply IHn; [cbn in L; lia|assumption].
      * apply quote_bmp; [assumption| |apply IHn; [cbn in *; lia|assumption]].
        unfold surrogate. destruct (Z_le_dec 0xd800 c); [|left; lia]. destruct (Z_le_dec c 0xdfff); [|left; lia].
        right. destruct (Z_le_dec c 0xdbff); [left|right; lia]. split; [lia|]. intros (x & y & X & T). inversion X; subst.
        rewrite (proj2 (leading_range c)), (proj2 (trailing_range x)) in E by lia. discriminate.
Qed.

Lemma hexl_hexd c n : hexl c n -> hexd c n.
Proof. unfold hexl, hexd. tauto. Qed.

Lemma quoted_chars s t : quoted s t -> chars t s.
Proof.
  induction 1.
  - constructor.
  - apply C_short; [|assumption]. unfold named_escape, short_escape in *. cbn [In] in *.
    decompose [or] H; try contradiction; match goal with E : (_, _) = (_, _) |- _ => inversion E; subst end; tauto.
  - apply C_plain; auto.
  - apply C_plain; try lia. apply C_plain; try lia. assumption.
  - rewrite H4. apply C_hex; auto using hexl_hexd.
Qed.

Lemma quoted_clean s t : quoted s t -> clean t.
Proof.
  assert (Hx : forall c n, hexl c n -> 0x20 <= c <= 0xffff /\ ~ surrogate c) by (unfold hexl, surrogate; intros; lia).
  induction 1.
  - constructor.
  - assert (R : 34 <= w < 127). { unfold named_escape in H. cbn [In] in H. decompose [or] H; try contradiction; match goal with E : (_, _) = (_, _) |- _ => inversion E; subst end; lia. }
    apply CL_unit; [lia|unfold surrogate; lia|]. apply CL_unit; [lia|unfold surrogate; lia|assumption].
  - apply CL_unit; auto.
  - apply CL_pair; auto.
  - repeat (apply CL_unit; [first [lia|eapply Hx; eassumption]|first [eapply Hx; eassumption|unfold surrogate; lia]|]). assumption.
Qed.

Lemma clean_app a b : clean a -> clean b -> clean (a ++ b).
Proof. induction 1; intros; cbn [app]; auto using clean. Qed.

Lemma quote_literal s : Forall unit16 s -> literal (quote s) s.
Proof. intros F. exists (quote_loop (List.length s) s). split; [reflexivity|]. apply quoted_chars, quote_quoted; auto. Qed.

Lemma quote_clean s : Forall unit16 s -> clean (quote s).
Proof.
  intros F. unfold quote. apply CL_unit; [lia|unfold surrogate; lia|]. apply clean_app; [eapply quoted_clean, quote_quoted; eauto|].
  apply CL_unit; [lia|unfold surrogate; lia|constructor].
Qed.

Lemma quote_lexed s rest fuel : Forall unit16 s -> (List.length (quote s) <= fuel)%nat ->
  exists b, quote s = 34 :: b /\ lex_string 34 fuel (b ++ rest) [] false = LOk (s, false, rest).
Proof.
  intros F L. unfold quote in *. exists (quote_loop (List.length s) s ++ [34]). split; [reflexivity|].
  cbn [app List.length] in L. rewrite app_length in L. cbn [List.length] in L.
  rewrite <- app_assoc. cbn [app].
  rewrite (lex_string_chars (List.length (quote_loop (List.length s) s)) _ s); auto; [|lia].
  apply quoted_chars, quote_quoted; auto.
Qed.

(** ** Trees *)
Definition sitems (gap : option str) (ind : str) := fix items (first : bool) (l : list sval) : sres str :=
  match l with
  | [] => SOk []
  | x :: l' =>
      do o <- serialize gap ind x;
      do rest <- items false l';
      SOk ((if first then [] else [44]) ++ nl gap ind ++
           (match o with None => zs "null"%string | Some t => t end) ++ rest)
  end.
Definition smembers (gap : option str) (ind : str) := fix members (empty : bool) (l : list (str * sval)) : sres (str * bool) :=
  match l with
  | [] => SOk ([], empty)
  | (k, x) :: l' =>
      do o <- serialize gap ind x;
      match o with
      | None => members empty l'
      | Some t =>
          do p <- members false l';
          SOk ((if empty then [] else [44]) ++ nl gap ind ++ quote k ++ colon gap ++ t ++ fst p, snd p)
      end
  end.

Lemma serialize_arr gap indent l : serialize gap indent (SArr l) =
  do body <- sitems gap (deeper gap indent) true l;
  SOk (Some ([91] ++ body ++ (match l with [] => [] | _ => nl gap indent end) ++ [93])).
Proof. reflexivity. Qed.
Lemma serialize_obj gap indent l : serialize gap indent (SObj l) =
  do p <- smembers gap (deeper gap indent) true l;
  SOk (Some ([123] ++ fst p ++ (if snd p then [] else nl gap indent) ++ [125])).
Proof. reflexivity. Qed.
Lemma sitems_cons gap ind first x l : sitems gap ind first (x :: l) =
  do o <- serialize gap ind x; do rest <- sitems gap ind false l;
  SOk ((if first then [] else [44]) ++ nl gap ind ++ (match o with None => zs "null"%string | Some t => t end) ++ rest).
Proof. reflexivity. Qed.
Lemma smembers_cons gap ind empty k x l : smembers gap ind empty ((k, x) :: l) =
  do o <- serialize gap ind x;
  match o with
  | None => smembers gap ind empty l
  | Some t => do p <- smembers gap ind false l;
      SOk ((if empty then [] else [44]) ++ nl gap ind ++ quote k ++ colon gap ++ t ++ fst p, snd p)
  end.
Proof. reflexivity. Qed.

Definition gap_spaces (gap : option str) : Prop := match gap with None => True | Some g => spaces g end.

Lemma nl_spaces gap ind : spaces ind -> spaces (nl gap ind).
Proof. intros. destruct gap; cbn; [constructor; [unfold ws; tauto|assumption]|constructor]. Qed.
Lemma deeper_spaces gap ind : gap_spaces gap -> spaces ind -> spaces (deeper gap ind).
Proof. intros. destruct gap; cbn; [apply Forall_app; split; assumption|assumption]. Qed.

Lemma repeat_spaces n : spaces (repeat 32 n).
Proof. apply Forall_forall. intros x I. apply repeat_spec in I. subst. unfold ws. tauto. Qed.

Scheme denotes_m := Induction for denotes Sort Prop
  with denotes_list_m := Induction for denotes_list Sort Prop
  with denotes_members_m := Induction for denotes_members Sort Prop.
Combined Scheme denotes_mind from denotes_m, denotes_list_m, denotes_members_m.

Lemma serialize_all gap : gap_spaces gap ->
  (forall x o, denotes x o -> forall ind, spaces ind ->
     match o with
     | Some v => exists t, serialize gap ind x = SOk (Some t) /\ value t v
     | None => serialize gap ind x = SOk None
     end) /\
  (forall l vs, denotes_list l vs -> forall ind first, spaces ind ->
     (l = [] /\ vs = []) \/
     exists b, sitems gap ind first l = SOk ((if first then [] else [44]) ++ b) /\ (forall w, spaces w -> elements (b ++ w) vs) /\ l <> []) /\
  (forall l ms, denotes_members l ms -> forall ind empty, spaces ind ->
     (ms = [] /\ smembers gap ind empty l = SOk ([], empty)) \/
     exists b, smembers gap ind empty l = SOk ((if empty then [] else [44]) ++ b, false) /\ (forall w, spaces w -> members (b ++ w) ms)).
Proof.
  intros GS.
  apply (denotes_mind
    (fun x o _ => forall ind, spaces ind ->
       match o with
       | Some v => exists t, serialize gap ind x = SOk (Some t) /\ value t v
       | None => serialize gap ind x = SOk None
       end)
    (fun l vs _ => forall ind first, spaces ind ->
       (l = [] /\ vs = []) \/
       exists b, sitems gap ind first l = SOk ((if first then [] else [44]) ++ b) /\ (forall w, spaces w -> elements (b ++ w) vs) /\ l <> [])
    (fun l ms _ => forall ind empty, spaces ind ->
       (ms = [] /\ smembers gap ind empty l = SOk ([], empty)) \/
       exists b, smembers gap ind empty l = SOk ((if empty then [] else [44]) ++ b, false) /\ (forall w, spaces w -> members (b ++ w) ms))).
  - intros ind W. exists (zs "null"). split; [reflexivity|constructor].
  - intros b ind W. exists (zs (if b then "true" else "false")). split; [reflexivity|destruct b; constructor].
  - intros t n u (-> & N) ind W. destruct n; eexists; (split; [reflexivity|]); constructor; assumption.
  - intros t ind W. exists (zs "null"). split; [reflexivity|constructor].
  - intros s F ind W. exists (quote s). split; [reflexivity|]. constructor. apply quote_literal. exact F.
  - intros l vs D IH ind W. rewrite serialize_arr.
    destruct (IH (deeper gap ind) true (deeper_spaces _ _ GS W)) as [[-> ->]|(b & E & EL & NE)].
    + cbn. eexists. split; [reflexivity|]. apply (V_arr0 []). constructor.
    + rewrite E. cbn [sbind app]. eexists. split; [reflexivity|].
      destruct l; [congruence|]. rewrite app_assoc. apply (V_arr (b ++ nl gap ind)). apply EL. apply nl_spaces. assumption.
  - intros l ms D IH ind W. rewrite serialize_obj.
    destruct (IH (deeper gap ind) true (deeper_spaces _ _ GS W)) as [[-> E]|(b & E & EL)]; rewrite E; cbn [sbind app fst snd].
    + eexists. split; [reflexivity|]. apply (V_obj0 []). constructor.
    + eexists. split; [reflexivity|].
      rewrite app_assoc. apply (V_obj (b ++ nl gap ind)). apply EL. apply nl_spaces. assumption.
  - intros ind W. reflexivity.
  - intros ind first W. left. auto.
  - intros x l v vs D IH DL IHL ind first W. right. rewrite sitems_cons.
    destruct (IH ind W) as (t & E & V). rewrite E. cbn [sbind].
    destruct (IHL ind false W) as [[-> ->]|(b & E2 & EL & NE)].
    + cbn [sitems sbind]. eexists. rewrite app_nil_r. split; [reflexivity|]. split; [|discriminate].
      intros w Ww. rewrite <- app_assoc. apply E_one; auto using nl_spaces.
    + rewrite E2. cbn [sbind]. eexists. split; [reflexivity|]. split; [|discriminate].
      intros w Ww. rewrite <- !app_assoc. apply (E_more (nl gap ind) t v [] (b ++ w)); auto using nl_spaces. constructor.
  - intros x l vs D IH DL IHL ind first W. right. rewrite sitems_cons.
    rewrite (IH ind W). cbn [sbind].
    destruct (IHL ind false W) as [[-> ->]|(b & E2 & EL & NE)].
    + cbn [sitems sbind]. eexists. rewrite app_nil_r. split; [reflexivity|]. split; [|discriminate].
      intros w Ww. rewrite <- app_assoc. apply E_one; auto using nl_spaces. constructor.
    + rewrite E2. cbn [sbind]. eexists. split; [reflexivity|]. split; [|discriminate].
      intros w Ww. rewrite <- !app_assoc. apply (E_more (nl gap ind) (zs "null") JNull [] (b ++ w)); auto using nl_spaces; constructor.
  - intros ind empty W. left. auto.
  - intros k x l v vs K D IH DL IHL ind empty W. right. rewrite smembers_cons.
    destruct (IH ind W) as (t & E & V). rewrite E. cbn [sbind].
    assert (CW : exists w3, colon gap = [58] ++ w3 /\ spaces w3).
    { destruct gap; [exists [32]|exists []]; (split; [reflexivity|]); [apply (repeat_spaces 1)|constructor]. }
    destruct CW as (w3 & -> & W3).
    destruct (IHL ind false W) as [[-> E2]|(b & E2 & EL)]; rewrite E2; cbn [sbind fst snd].
    + eexists. rewrite app_nil_r. split; [reflexivity|].
      intros w Ww. rewrite <- !app_assoc. apply (M_one (nl gap ind) (quote k) k [] w3 t v w); auto using nl_spaces, quote_literal. constructor.
    + eexists. split; [reflexivity|].
      intros w Ww. rewrite <- !app_assoc.
      apply (M_more (nl gap ind) (quote k) k [] w3 t v [] (b ++ w)); auto using nl_spaces, quote_literal; constructor.
  - intros k x l vs D IH DL IHL ind empty W. rewrite smembers_cons. rewrite (IH ind W). cbn [sbind]. apply IHL. assumption.
Qed.

Lemma stringify_text gap x v : gap_spaces gap -> denotes x (Some v) ->
  exists t, json_stringify gap x = SOk (Some t) /\ json_text t v.
Proof.
  intros G D. destruct (serialize_all gap G) as (S & _). specialize (S x (Some v) D [] ltac:(constructor)).
  destruct S as (t & E & V). exists t. split; [exact E|]. exists [], t, []. rewrite app_nil_r. repeat split; auto; constructor.
Qed.
Lemma stringify_undefined gap x : gap_spaces gap -> denotes x None -> json_stringify gap x = SOk None.
Proof. intros G D. destruct (serialize_all gap G) as (S & _). exact (S x None D [] ltac:(constructor)). Qed.
