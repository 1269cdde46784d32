(** Every JSON text is accepted and gives its value. *)
From Coq Require Import List ZArith Bool Lia String.
From Verif Require Import StrModel StrProofs JsonModel JsonSpec JsonLexProofs.
Import ListNotations.
Local Open Scope Z_scope.

Lemma str_eqb_eq : forall a b, str_eqb a b = true <-> a = b.
Proof.
  induction a; destruct b; cbn; split; intros H; try congruence; try discriminate.
  - apply andb_true_iff in H. destruct H as [H1 H2]. apply Z.eqb_eq in H1. apply IHa in H2. congruence.
  - inversion H; subst. rewrite Z.eqb_refl. apply IHa. reflexivity.
Qed.

Lemma put_set k v l : NoDup (map fst l) -> put k v l = set_member l (k, v).
Proof.
  unfold set_member. cbn [fst snd].
  induction l as [|[k' v'] l IH]; intros N; [reflexivity|].
  cbn [put existsb map fst snd]. cbn [map fst] in N. inversion N as [|? ? Ni N']; subst.
  destruct (list_eq_dec Z.eq_dec k' k) as [->|Ne].
  - assert (str_eqb k k = true) as -> by (apply str_eqb_eq; reflexivity). cbn [orb].
    f_equal. rewrite <- (map_id l) at 1. apply map_ext_in. intros [k2 v2] I. cbn [fst snd].
    destruct (list_eq_dec Z.eq_dec k2 k) as [->|]; [|reflexivity].
    exfalso. apply Ni. apply (in_map fst) in I. exact I.
  - destruct (str_eqb k k') eqn:E; [apply str_eqb_eq in E; congruence|].
    rewrite IH by assumption. cbn [orb]. match goal with |- context [existsb ?f l] => destruct (existsb f l) end; reflexivity.
Qed.

Lemma set_member_nodup l kv : NoDup (map fst l) -> NoDup (map fst (set_member l kv)).
Proof.
  intros N. unfold set_member. match goal with |- context [existsb ?f l] => destruct (existsb f l) eqn:E end.
  - rewrite map_map. erewrite map_ext; [exact N|]. intros [k v]. cbn [fst snd]. destruct (list_eq_dec _ _ _); reflexivity.
  - rewrite map_app. cbn [map]. apply NoDup_rev in N. rewrite <- (rev_involutive (map fst l ++ [fst kv])).
    apply NoDup_rev. rewrite rev_app_distr. cbn [rev app]. constructor; [|exact N].
    rewrite <- in_rev. intros I. apply in_map_iff in I. destruct I as (p & Ep & Ip).
    assert (existsb (fun p => if list_eq_dec Z.eq_dec (fst p) (fst kv) then true else false) l = true).
    { apply existsb_exists. exists p. split; [exact Ip|]. destruct (list_eq_dec _ _ _) as [|Q]; [reflexivity|exfalso; apply Q; exact Ep]. }
    congruence.
Qed.

Section Classes.
Variables ids idc : Z -> bool.
Hypothesis CL : id_classes ids idc.

Local Notation get_token := (get_token ids idc).
Local Notation parse_value := (parse_value ids idc).
Local Notation array_loop := (array_loop ids idc).
Local Notation object_loop := (object_loop ids idc).

Lemma parse_value_S f st : parse_value (S f) st =
      let? (t, st) := get_token st in
      match t with
      | TLbracket => let? (l, st) := array_loop f st [] in POk (JArr l, st)
      | TLbrace => let? (l, st) := object_loop f st [] in POk (JObj l, st)
      | TString s => POk (JStr s, st)
      | TNumber b x => POk (JNum false b x, st)
      | TBigInt b x => POk (JBig b x, st)
      | TPlus => parse_json_number ids idc st
      | TMinus => let? (v, st) := parse_json_number ids idc st in let? v := negate v in POk (v, st)
      | TIdentifier n =>
          if str_eqb n (zs "null"%string) then POk (JNull, st)
          else if str_eqb n (zs "true"%string) then POk (JBool true, st)
          else if str_eqb n (zs "false"%string) then POk (JBool false, st)
          else if str_eqb n (zs "Infinity"%string) then POk (JInf false, st)
          else if str_eqb n (zs "NaN"%string) then POk (JNaN, st)
          else PErr
      | _ => PErr
      end.
Proof. reflexivity. Qed.
Lemma array_loop_S f st acc : array_loop (S f) st acc =
      let? (t, st) := get_token st in
      match t with
      | TRbracket => POk (acc, st)
      | _ =>
          let? (v, st) := parse_value f (unget_token t st) in
          let acc := acc ++ [v] in
          let? (t, st) := get_token st in
          match t with
          | TRbracket => POk (acc, st)
          | TComma => array_loop f st acc
          | _ => PErr
          end
      end.
Proof. reflexivity. Qed.
Lemma object_loop_S f st acc : object_loop (S f) st acc =
      let? (t, st) := get_token st in
      match t with
      | TRbrace => POk (acc, st)
      | TString k | TIdentifier k =>
          let? (t, st) := get_token st in
          match t with
          | TColon =>
              let? (v, st) := parse_value f st in
              let acc := put k v acc in
              let? (t, st) := get_token st in
              match t with
              | TRbrace => POk (acc, st)
              | TComma => object_loop f st acc
              | _ => PErr
              end
          | _ => PErr
          end
      | _ => PErr
      end.
Proof. reflexivity. Qed.

(** first characters of tokens *)
Definition first_ok (c : Z) : Prop := In c [34; 123; 125; 91; 93; 44; 58; 45] \/ 48 <= c <= 57 \/ 97 <= c <= 122.

Lemma skip_first w c s fuel : spaces w -> first_ok c -> (List.length w < fuel)%nat ->
  skip_space fuel (w ++ c :: s) false = LOk (c, c :: s, s, false).
Proof.
  intros W H F.
  assert (R : 34 <= c <= 125 /\ c <> 47) by (unfold first_ok in H; cbn in H; lia).
  assert (G : get (c :: s) = (c, s)) by (apply get_plain; lia).
  rewrite (skip_ws (List.length w)); auto.
  - rewrite G. reflexivity.
  - left. rewrite G. cbn [fst]. intros d [Hd | Hd] <-.
    + cbn in Hd. lia.
    + unfold is_white_space, u_isUWhiteSpace in Hd. zb.
Qed.

Lemma token_punct w c s t :
  spaces w ->
  (c = 123 /\ t = TLbrace) \/ (c = 125 /\ t = TRbrace) \/ (c = 91 /\ t = TLbracket) \/ (c = 93 /\ t = TRbracket) \/
  (c = 44 /\ t = TComma) \/ (c = 58 /\ t = TColon) \/ (c = 45 /\ t = TMinus) ->
  get_token (None, w ++ c :: s) = POk (t, (None, s)).
Proof.
  intros W H. unfold JsonModel.get_token, lex_token.
  rewrite skip_first; auto.
  - decompose [or and] H; subst; reflexivity.
  - unfold first_ok. cbn. lia.
  - rewrite app_length. lia.
Qed.

Lemma token_string w t v s : spaces w -> literal t v ->
  get_token (None, w ++ t ++ s) = POk (TString v, (None, s)).
Proof.
  intros W (b & -> & C). rewrite <- !app_assoc. cbn [app]. unfold JsonModel.get_token, lex_token.
  rewrite skip_first; auto.
  - cbn [lbind Z.eqb Pos.eqb orb].
    rewrite (lex_string_chars (List.length b) b v s); auto.
    rewrite !app_length. cbn [List.length]. rewrite app_length. lia.
  - unfold first_ok. cbn. lia.
  - rewrite app_length. lia.
Qed.

Lemma token_number w t s : spaces w -> number t -> stop s ->
  get_token (None, w ++ t ++ s) = POk (TNumber 10 t, (None, s)).
Proof.
  intros W N H.
  assert (exists c t', t = c :: t' /\ 48 <= c <= 57) as (c & t' & -> & Hc).
  { destruct N as (i & f & e & -> & [-> | (d & r & -> & Hd & _)] & _).
    - exists 48, (f ++ e). split; [reflexivity|lia].
    - exists d, (r ++ f ++ e). split; [reflexivity|lia]. }
  unfold JsonModel.get_token, lex_token. cbn [app].
  rewrite skip_first; auto.
  - cbn [lbind].
    repeat match goal with |- context [Z.eqb c ?n] => destruct (Z.eqb_spec c n); [lia|] end.
    cbn [orb]. rewrite (digit_is c Hc). change (c :: t' ++ s) with ((c :: t') ++ s).
    rewrite number_run with (idc := idc); auto. rewrite !app_length. lia.
  - unfold first_ok. lia.
  - rewrite app_length. lia.
Qed.

Lemma token_word w c t s : spaces w -> Forall (fun c => 97 <= c <= 122) (c :: t) -> stop s ->
  get_token (None, w ++ (c :: t) ++ s) = POk (TIdentifier (c :: t), (None, s)).
Proof.
  intros W F H. inversion F; subst.
  unfold JsonModel.get_token, lex_token. cbn [app].
  rewrite skip_first; auto.
  - cbn [lbind].
    repeat match goal with |- context [Z.eqb c ?n] => destruct (Z.eqb_spec c n); [lia|] end.
    cbn [orb]. assert (is_digit c = false) as -> by (unfold is_digit; zb).
    destruct CL as (_ & _ & C3). destruct (C3 c ltac:(lia)) as [E _].
    assert (ids c = true) as -> by (rewrite E; unfold letter; zb).
    rewrite word_run; auto. rewrite app_length. cbn [List.length]. rewrite app_length. lia.
  - unfold first_ok. lia.
  - rewrite app_length. lia.
Qed.

(** Reading a token and putting it back does not matter *)
Lemma parse_unget f st t st' : get_token st = POk (t, st') -> fst st' = None ->
  parse_value f (unget_token t st') = parse_value f st.
Proof.
  intros G N. destruct st' as [o s']. cbn [fst] in N. subst o.
  destruct f; [reflexivity|]. rewrite !parse_value_S. rewrite G. reflexivity.
Qed.

Lemma get_token_cleared st t st' : get_token st = POk (t, st') -> fst st' = None.
Proof.
  destruct st as [[o|] s]; cbn; intros H; [inversion H; reflexivity|].
  destruct (lex_token _ _ _ _) as [[[x e] r]| |]; try discriminate. destruct e; inversion H. reflexivity.
Qed.

Lemma parse_first f st x : parse_value f st = POk x ->
  exists t st', get_token st = POk (t, st') /\ fst st' = None /\ t <> TRbracket.
Proof.
  destruct f; [discriminate|]. rewrite parse_value_S. intros H.
  destruct (get_token st) as [[t st']| | |] eqn:G; try discriminate.
  exists t, st'. split; [reflexivity|]. split; [apply (get_token_cleared st t st' G)|].
  intros ->. discriminate H.
Qed.

Lemma stop_ws w s : spaces w -> stop s -> stop (w ++ s).
Proof.
  intros W H. destruct w as [|c w]; [exact H|]. right. inversion W; subst. exists c, (w ++ s). auto.
Qed.
Lemma stop_char c s : c = 44 \/ c = 93 \/ c = 125 -> stop (c :: s).
Proof. intros H. right. exists c, s. tauto. Qed.

Scheme value_mind := Induction for value Sort Prop
  with elements_mind := Induction for elements Sort Prop
  with members_mind := Induction for members Sort Prop.
Combined Scheme json_mind from value_mind, elements_mind, members_mind.

Lemma parse_json_all :
  (forall t v, value t v -> forall w rest f, spaces w -> stop rest -> (List.length t <= f)%nat ->
     parse_value f (None, w ++ t ++ rest) = POk (v, (None, rest))) /\
  (forall t l, elements t l -> forall rest f acc, (List.length t < f)%nat ->
     array_loop f (None, t ++ 93 :: rest) acc = POk (acc ++ l, (None, rest))) /\
  (forall t l, members t l -> forall rest f acc, (List.length t < f)%nat -> NoDup (map fst acc) ->
     object_loop f (None, t ++ 125 :: rest) acc = POk (fold_left set_member l acc, (None, rest))).
Proof.
  apply (json_mind
    (fun t v _ => forall w rest f, spaces w -> stop rest -> (List.length t <= f)%nat ->
       parse_value f (None, w ++ t ++ rest) = POk (v, (None, rest)))
    (fun t l _ => forall rest f acc, (List.length t < f)%nat ->
       array_loop f (None, t ++ 93 :: rest) acc = POk (acc ++ l, (None, rest)))
    (fun t l _ => forall rest f acc, (List.length t < f)%nat -> NoDup (map fst acc) ->
       object_loop f (None, t ++ 125 :: rest) acc = POk (fold_left set_member l acc, (None, rest)))).
  - intros w rest f W H F. destruct f; [cbn in F; lia|]. rewrite parse_value_S.
    change (zs "null") with (110 :: [117; 108; 108]).
    rewrite token_word; auto. repeat constructor; lia.
  - intros w rest f W H F. destruct f; [cbn in F; lia|]. rewrite parse_value_S.
    change (zs "true") with (116 :: [114; 117; 101]).
    rewrite token_word; auto. repeat constructor; lia.
  - intros w rest f W H F. destruct f; [cbn in F; lia|]. rewrite parse_value_S.
    change (zs "false") with (102 :: [97; 108; 115; 101]).
    rewrite token_word; auto. repeat constructor; lia.
  - intros t N w rest f W H F.
    assert (t <> []). { destruct N as (i & g & e & -> & [-> | (d & r & -> & _)] & _); discriminate. }
    destruct f; [destruct t; [congruence|cbn in F; lia]|]. rewrite parse_value_S.
    rewrite token_number; auto.
  - intros t N w rest f W H F. destruct f; [cbn in F; lia|]. rewrite parse_value_S. cbn [app].
    rewrite (token_punct w 45 (t ++ rest) TMinus) by (auto; tauto). cbn [pbind].
    unfold parse_json_number. change (t ++ rest) with ([] ++ t ++ rest).
    rewrite token_number by (auto; constructor). reflexivity.
  - intros t v Lt w rest f W H F.
    destruct f; [destruct Lt as (b & -> & _); cbn in F; lia|]. rewrite parse_value_S.
    rewrite (token_string w t v); auto.
  - intros w0 W0 w rest f W H F. cbn [List.length app] in F. rewrite app_length in F. cbn in F.
    destruct f as [|f]; [lia|]. destruct f as [|f]; [lia|]. rewrite parse_value_S.
    rewrite <- !app_assoc. cbn [app].
    rewrite (token_punct w 91 _ TLbracket) by (auto; tauto). cbn [pbind]. rewrite array_loop_S.
    rewrite (token_punct w0 93 _ TRbracket) by (auto; tauto). reflexivity.
  - intros t l E IH w rest f W H F. cbn [List.length app] in F. rewrite app_length in F. cbn in F.
    destruct f as [|f]; [lia|]. rewrite parse_value_S.
    rewrite <- !app_assoc. cbn [app].
    rewrite (token_punct w 91 _ TLbracket) by (auto; tauto). cbn [pbind].
    rewrite IH by lia. reflexivity.
  - intros w0 W0 w rest f W H F. cbn [List.length app] in F. rewrite app_length in F. cbn in F.
    destruct f as [|f]; [lia|]. destruct f as [|f]; [lia|]. rewrite parse_value_S.
    rewrite <- !app_assoc. cbn [app].
    rewrite (token_punct w 123 _ TLbrace) by (auto; tauto). cbn [pbind]. rewrite object_loop_S.
    rewrite (token_punct w0 125 _ TRbrace) by (auto; tauto). reflexivity.
  - intros t l E IH w rest f W H F. cbn [List.length app] in F. rewrite app_length in F. cbn in F.
    destruct f as [|f]; [lia|]. rewrite parse_value_S.
    rewrite <- !app_assoc. cbn [app].
    rewrite (token_punct w 123 _ TLbrace) by (auto; tauto). cbn [pbind].
    rewrite IH by (try lia; constructor). reflexivity.
  - intros w1 t v w2 W1 V IHv W2 rest f acc F. rewrite !app_length in F.
    destruct f as [|f]; [lia|]. rewrite <- !app_assoc.
    assert (P : parse_value f (None, w1 ++ t ++ w2 ++ 93 :: rest) = POk (v, (None, w2 ++ 93 :: rest))).
    { apply IHv; auto; [|lia]. apply stop_ws; auto. apply stop_char; auto. }
    destruct (parse_first _ _ _ P) as (tk & st' & G & N & NR).
    rewrite array_loop_S. rewrite G. cbn [pbind].
    pose proof (parse_unget f _ _ _ G N) as U. rewrite P in U.
    assert (T : get_token (None, w2 ++ 93 :: rest) = POk (TRbracket, (None, rest))) by (apply token_punct; tauto).
    destruct tk; try congruence; rewrite U; cbn [pbind]; rewrite T; reflexivity.
  - intros w1 t v w2 t' l W1 V IHv W2 E IHe rest f acc F. rewrite !app_length in F. cbn [List.length] in F.
    destruct f as [|f]; [lia|]. rewrite <- !app_assoc. cbn [app].
    assert (P : parse_value f (None, w1 ++ t ++ w2 ++ 44 :: t' ++ 93 :: rest) = POk (v, (None, w2 ++ 44 :: t' ++ 93 :: rest))).
    { apply IHv; auto; [|lia]. apply stop_ws; auto. apply stop_char; auto. }
    destruct (parse_first _ _ _ P) as (tk & st' & G & N & NR).
    rewrite array_loop_S. rewrite G. cbn [pbind].
    pose proof (parse_unget f _ _ _ G N) as U. rewrite P in U.
    assert (T : get_token (None, w2 ++ 44 :: t' ++ 93 :: rest) = POk (TComma, (None, t' ++ 93 :: rest))) by (apply token_punct; tauto).
    assert (R : array_loop f (None, t' ++ 93 :: rest) (acc ++ [v]) = POk (acc ++ v :: l, (None, rest))).
    { rewrite IHe by lia. rewrite <- app_assoc. reflexivity. }
    destruct tk; try congruence; rewrite U; cbn [pbind]; rewrite T; cbn [pbind]; rewrite R; reflexivity.
  - intros w1 k n w2 w3 t v w4 W1 K W2 W3 V IHv W4 rest f acc F ND. rewrite !app_length in F. cbn [List.length] in F.
    destruct f as [|f]; [lia|]. rewrite <- !app_assoc. cbn [app]. rewrite object_loop_S.
    rewrite (token_string w1 k n) by auto. cbn [pbind].
    rewrite (token_punct w2 58 _ TColon) by (auto; tauto). cbn [pbind].
    rewrite IHv; auto; try lia; [|apply stop_ws; auto; apply stop_char; auto]. cbn [pbind].
    rewrite (token_punct w4 125 _ TRbrace) by (auto; tauto). cbn [pbind fold_left].
    rewrite put_set by assumption. reflexivity.
  - intros w1 k n w2 w3 t v w4 t' l W1 K W2 W3 V IHv W4 E IHe rest f acc F ND. rewrite !app_length in F. cbn [List.length] in F.
    rewrite ?app_length in F. cbn [List.length] in F.
    destruct f as [|f]; [lia|]. rewrite <- !app_assoc. cbn [app]. rewrite object_loop_S.
    rewrite (token_string w1 k n) by auto. cbn [pbind].
    rewrite (token_punct w2 58 _ TColon) by (auto; tauto). cbn [pbind].
    rewrite IHv; auto; try lia; [|apply stop_ws; auto; apply stop_char; auto]. cbn [pbind].
    rewrite (token_punct w4 44 _ TComma) by (auto; tauto). cbn [pbind fold_left].
    rewrite put_set by assumption. rewrite IHe; [reflexivity|lia|apply set_member_nodup; exact ND].
Qed.

Lemma parse_accepts t v : json_text t v -> json_parse ids idc t = POk v.
Proof.
  intros (w1 & b & w2 & -> & W1 & V & W2). unfold json_parse.
  destruct parse_json_all as [P _].
  rewrite (P b v V); auto.
  - cbn [pbind]. unfold JsonModel.get_token, lex_token. rewrite <- (app_nil_r w2) at 2.
    rewrite (skip_ws (List.length w2)); auto.
  - rewrite <- (app_nil_r w2). apply stop_ws; auto. left. reflexivity.
  - rewrite !app_length. lia.
Qed.

End Classes.
