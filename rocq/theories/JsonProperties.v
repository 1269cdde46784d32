(** C42, C43, C61: JSON.  C62: the character input. *)
From Coq Require Import List ZArith Bool Lia String.
From Verif Require Import StrModel JsonModel JsonSpec JsonLexProofs JsonParseProofs JsonTokProofs JsonQuoteProofs JsonRefuteProofs JsonCloseProofs.
From Verif Require Import InputModel InputSpec InputProofs.
Import ListNotations.
Local Open Scope Z_scope.
Local Open Scope list_scope.

(** The identifier classes of the internal build, include/rjs_uchar.h:227-236, on ASCII *)
Definition ids0 (c : Z) : bool := letter c || (c =? 36) || (c =? 95).
Definition idc0 (c : Z) : bool := letter c || ((48 <=? c) && (c <=? 57)) || (c =? 36) || (c =? 95).
Example classes0 : id_classes ids0 idc0.
Proof. split; [reflexivity|split; [reflexivity|]]. intros; split; reflexivity. Qed.

(** ** C42: the text of a string *)

(** The output is QuoteJSONString of ECMA-262. *)
Theorem C42_quote_conforms : forall s, Forall unit16 s ->
  exists t, quote s = [34] ++ t ++ [34] /\ quoted s t.
Proof. intros s F. eexists. split; [reflexivity|]. apply quote_quoted; auto. Qed.
Print Assumptions C42_quote_conforms.

(** It is a JSON string literal for the string, and well formed text without control characters. *)
Theorem C42_quote_literal : forall s, Forall unit16 s -> literal (quote s) s /\ clean (quote s).
Proof. intros s F. split; [apply quote_literal|apply quote_clean]; assumption. Qed.
Print Assumptions C42_quote_literal.

(** The lexer reads it back, without error and up to its closing quote. *)
Theorem C42_quote_read_back : forall ids idc s, id_classes ids idc -> Forall unit16 s ->
  json_parse ids idc (quote s) = POk (JStr s).
Proof.
  intros ids idc s C F. apply parse_accepts; [assumption|]. exists [], (quote s), []. rewrite app_nil_r.
  split; [reflexivity|]. split; [constructor|]. split; [|constructor]. constructor. apply quote_literal. exact F.
Qed.
Print Assumptions C42_quote_read_back.
Theorem C42_lexer_read_back : forall s rest fuel, Forall unit16 s -> (List.length (quote s) <= fuel)%nat ->
  exists b, quote s = 34 :: b /\ lex_string 34 fuel (b ++ rest) [] false = LOk (s, false, rest).
Proof. exact quote_lexed. Qed.
Print Assumptions C42_lexer_read_back.

(** a control character, a quote, an unpaired and a paired surrogate, and a plain letter *)
Definition witness_string : str := [7; 34; 0xdc00; 0xd83d; 0xde00; 10; 0xd800; 97].
Example C42_witness : Forall unit16 witness_string /\
  quote witness_string = zs """\u0007\""\udc00"%string ++ [0xd83d; 0xde00] ++ zs "\n\ud800a"""%string /\
  json_parse ids0 idc0 (quote witness_string) = POk (JStr witness_string).
Proof. split; [repeat constructor; unfold unit16; lia|]. split; vm_compute; reflexivity. Qed.

(** ** C43: JSON.parse *)

(** Every JSON text is accepted with its value. *)
Theorem C43_accepts_json : forall ids idc t v, id_classes ids idc -> json_text t v -> json_parse ids idc t = POk v.
Proof. intros. apply parse_accepts; assumption. Qed.
Print Assumptions C43_accepts_json.

(** The parser ends on every text. *)
Theorem C43_terminates : forall ids idc t, id_classes ids idc -> json_parse ids idc t <> PFuel.
Proof. intros ids idc t A. apply json_parse_ends; assumption. Qed.
Print Assumptions C43_terminates.

(** A JSON text has one value. *)
Theorem C43_value_unique : forall t v v', json_text t v -> json_text t v' -> v = v'.
Proof.
  intros t v v' A B. apply (C43_accepts_json _ _ _ _ classes0) in A, B. congruence.
Qed.
Print Assumptions C43_value_unique.

(** The texts accepted are exactly those whose tokens follow the relaxed grammar [rvalue]. *)
Theorem C43_actual : forall ids idc t v, id_classes ids idc ->
  json_parse ids idc t = POk v <-> exists ts, tokens ids idc t ts /\ rvalue ts v.
Proof. intros ids idc t v A. apply parse_exact; assumption. Qed.
Print Assumptions C43_actual.

(** A string token ends with the quote it began with: unterminated strings are
    errors. *)
Theorem C43_string_token_closed : forall ids idc fuel s v r,
  lex_token ids idc fuel s = LOk (TString v, false, r) ->
  exists a q b, (q = 34 \/ q = 39 \/ q = 96) /\ s = a ++ q :: b ++ q :: r.
Proof. exact string_token_closed. Qed.
Print Assumptions C43_string_token_closed.

(** Texts that are not JSON and are accepted all the same. *)
Definition tab_string : str := [34; 9; 34].
Definition nbsp_one : str := [160; 49].
Definition not_json : list (str * jval) :=
  [(zs "NaN", JNaN); (zs "-Infinity", JInf true); (zs "+1", JNum false 10 (zs "1")); (zs "- 1", JNum true 10 (zs "1"));
   (zs ".5", JNum false 10 (zs ".5")); (zs "1.", JNum false 10 (zs "1.")); (zs "01", JNum false 8 (zs "1"));
   (zs "0x10", JNum false 16 (zs "10")); (zs "1n", JBig 10 (zs "1")); (zs "1_0", JNum false 10 (zs "10"));
   (zs "'a'", JStr [97]); (zs "`a`", JStr [97]); (zs """\x41""", JStr [65]); (tab_string, JStr [9]);
   (zs "[1,]", JArr [JNum false 10 (zs "1")]); (zs "{""a"":1,}", JObj [([97], JNum false 10 (zs "1"))]);
   (zs "{a:1}", JObj [([97], JNum false 10 (zs "1"))]); (zs "/**/1", JNum false 10 (zs "1")); (nbsp_one, JNum false 10 (zs "1"))].

Theorem C43_strict_refuted : Forall (fun p => json_parse ids0 idc0 (fst p) = POk (snd p) /\ ~ exists v, json_text (fst p) v) not_json.
Proof.
  unfold not_json. repeat (apply Forall_cons; [split; [vm_compute; reflexivity|intros [v J]; revert J]|]); [..|constructor]; cbn [fst].
  - apply not_started. reflexivity.
  - apply (not_negative _ v 73 (zs "nfinity") (zs "-Infinit") 121); try reflexivity. unfold digit. lia.
  - apply not_started. reflexivity.
  - apply (not_negative _ v 32 (zs "1") (zs "- ") 49); try reflexivity. unfold digit. lia.
  - apply not_started. reflexivity.
  - apply (not_number _ v 49 (zs ".") (zs "1") 46); try reflexivity. unfold digit. lia.
  - apply (not_number _ v 48 (zs "1") (zs "0") 49); try reflexivity. unfold digit. lia.
  - apply (not_number _ v 48 (zs "x10") (zs "0x1") 48); try reflexivity. unfold digit. lia.
  - apply (not_number _ v 49 (zs "n") (zs "1") 110); try reflexivity. unfold digit. lia.
  - apply (not_number _ v 49 (zs "_0") (zs "1_") 48); try reflexivity. unfold digit. lia.
  - apply not_started. reflexivity.
  - apply not_started. reflexivity.
  - intros J. destruct (quoted_value _ v (zs "\x41") eq_refl J) as (w & C). inversion C; subst; [congruence|].
    match goal with X : short_escape _ _ |- _ => unfold short_escape in X; cbn in X; decompose [or] X; try contradiction; congruence end.
  - intros J. destruct (quoted_value _ v [9] eq_refl J) as (w & C). inversion C; subst. lia.
  - apply (not_array _ v (zs "1,")); try reflexivity. discriminate.
  - apply (not_object _ v (zs """a"":1,")); try reflexivity; [left; reflexivity|discriminate].
  - apply (not_object _ v (zs "a:1")); try reflexivity; [right; discriminate|discriminate].
  - apply not_started. reflexivity.
  - apply not_started. reflexivity.
Qed.
Print Assumptions C43_strict_refuted.

(** Two texts reach undefined behaviour: the sign before a BigInt (a failed assertion of
    rjs_value_get_number), and a code point escape with too many digits (a left shift of a
    negative int). *)
Theorem C43_undefined_refuted :
  json_parse ids0 idc0 (zs "-1n") = PUB /\ json_parse ids0 idc0 (zs """\u{1100000}""") = PUB.
Proof. split; vm_compute; reflexivity. Qed.
Print Assumptions C43_undefined_refuted.

(** {"k": [-1.5e3, true, "\u00e9\n"], "k2": {}, "k": null} *)
Definition sample_json : str := zs "{""k"": [-1.5e3, true, ""\u00e9\n""], ""k2"": {} , ""k"": null}".
Example C43_witness : exists v, json_text sample_json v /\
  json_parse ids0 idc0 sample_json = POk v /\ v = JObj [(zs "k", JNull); (zs "k2", JObj [])].
Proof.
  assert (S1 : spaces [32]) by (repeat constructor; unfold ws; tauto).
  assert (S0 : spaces []) by constructor.
  assert (Dg : forall c, 48 <= c <= 57 -> digit c) by (intros; assumption).
  exists (JObj (properties [(zs "k", JArr [JNum true 10 (zs "1.5e3"); JBool true; JStr [0xe9; 10]]); (zs "k2", JObj []); (zs "k", JNull)])).
  split; [|split; [vm_compute; reflexivity|vm_compute; reflexivity]].
  exists [], sample_json, []. rewrite app_nil_r. split; [reflexivity|]. split; [constructor|]. split; [|constructor].
  apply (V_obj (zs """k"": [-1.5e3, true, ""\u00e9\n""], ""k2"": {} , ""k"": null")).
  assert (LK : forall b, In b [zs "k"; zs "k2"] -> literal ([34] ++ b ++ [34]) b).
  { intros b H. exists b. split; [reflexivity|]. cbn in H. destruct H as [<- | [<- | []]]; cbn; repeat (apply C_plain; [lia|lia|lia|]); constructor. }
  apply (M_more [] (zs """k""") (zs "k") [] [32] (zs "[-1.5e3, true, ""\u00e9\n""]") _ [] (zs " ""k2"": {} , ""k"": null")); auto; [apply (LK (zs "k")); cbn; auto| |].
  - apply (V_arr (zs "-1.5e3, true, ""\u00e9\n""")).
    apply (E_more [] (zs "-1.5e3") _ [] (zs " true, ""\u00e9\n""")); auto.
    + apply V_neg. exists (zs "1"), (zs ".5"), (zs "e3"). split; [reflexivity|]. split; [|split].
      * right. exists 49, []. split; [reflexivity|]. split; [lia|constructor].
      * right. exists (zs "5"). split; [reflexivity|]. split; [discriminate|]. repeat constructor; unfold digit; cbn; lia.
      * right. exists 101, [], (zs "3"). split; [reflexivity|]. split; [auto|]. split; [auto|]. split; [discriminate|]. repeat constructor; unfold digit; cbn; lia.
    + apply (E_more [32] (zs "true") _ [] (zs " ""\u00e9\n""")); auto; [constructor|].
      rewrite <- (app_nil_r (zs " ""\u00e9\n""")). rewrite app_nil_r.
      apply (E_one [32] (zs """\u00e9\n""") _ []); auto. constructor. exists (zs "\u00e9\n"). split; [reflexivity|].
      apply (C_hex 48 48 101 57 0 0 14 9); unfold hexd; try lia. apply C_short; [unfold short_escape; cbn; tauto|constructor].
  - apply (M_more [32] (zs """k2""") (zs "k2") [] [32] (zs "{}") _ [32] (zs " ""k"": null")); auto; [apply (LK (zs "k2")); cbn; auto| |].
    + apply (V_obj0 []). constructor.
    + apply (M_one [32] (zs """k""") (zs "k") [] [32] (zs "null") _ []); auto; [apply (LK (zs "k")); cbn; auto|constructor].
Qed.

(** ** C61: JSON.stringify of a tree *)

(** With no gap, or a gap of JSON white space, the text is JSON with the value of the tree. *)
Theorem C61_stringify_json : forall gap x v, gap_spaces gap -> denotes x (Some v) ->
  exists t, json_stringify gap x = SOk (Some t) /\ json_text t v.
Proof. exact stringify_text. Qed.
Print Assumptions C61_stringify_json.

(** Hence JSON.parse gives the value back. *)
Theorem C61_round_trip : forall ids idc gap x v, id_classes ids idc -> gap_spaces gap -> denotes x (Some v) ->
  exists t, json_stringify gap x = SOk (Some t) /\ json_parse ids idc t = POk v.
Proof.
  intros ids idc gap x v C G D. destruct (stringify_text gap x v G D) as (t & E & J).
  exists t. split; [exact E|]. apply C43_accepts_json; assumption.
Qed.
Print Assumptions C61_round_trip.

Theorem C61_undefined : forall gap x, gap_spaces gap -> denotes x None -> json_stringify gap x = SOk None.
Proof. exact stringify_undefined. Qed.
Print Assumptions C61_undefined.

(** A number as third argument gives a gap of at most ten spaces. *)
Theorem C61_number_gap : forall z gap, gap_of_number (Fin z) = SOk gap ->
  gap_spaces gap /\ match gap with None => z < 1 | Some g => Z.of_nat (List.length g) = Z.min z 10 /\ 1 <= z end.
Proof.
  intros z gap. cbn [gap_of_number]. destruct (Z.ltb_spec (Z.min z 10) (- 2 ^ 63)); [discriminate|].
  destruct (Z.leb_spec 1 (Z.min z 10)); intros E; inversion E; subst; cbn [gap_spaces].
  - split; [apply repeat_spaces|]. rewrite repeat_length. lia.
  - split; [exact I|lia].
Qed.
Print Assumptions C61_number_gap.

(** A string as third argument gives its first ten units; the empty string gives no gap. *)
Theorem C61_string_gap : forall sp,
  match gap_of_string sp with
  | None => sp = []
  | Some g => sp <> [] /\ exists r, sp = g ++ r /\ (List.length g <= 10)%nat /\ (r = [] \/ List.length g = 10%nat)
  end.
Proof.
  intros [|c r]; [reflexivity|]. unfold gap_of_string. destruct (Nat.ltb_spec 10 (List.length (c :: r))).
  - split; [discriminate|]. exists (skipn 10 (c :: r)). rewrite firstn_skipn. split; [reflexivity|].
    rewrite firstn_length. split; [lia|right; lia].
  - split; [discriminate|]. exists []. rewrite app_nil_r. split; [reflexivity|]. split; [assumption|left; reflexivity].
Qed.
Print Assumptions C61_string_gap.

(** The conversion of the count to an integer is undefined for -Infinity and below -2^63. *)
Theorem C61_gap_refuted : gap_of_number NInf = SUB /\ forall z, gap_of_number (Fin z) = SUB <-> z < - 2 ^ 63.
Proof.
  split; [reflexivity|]. intros z. cbn [gap_of_number]. destruct (Z.ltb_spec (Z.min z 10) (- 2 ^ 63)); split; intros; try lia; try reflexivity; discriminate.
Qed.
Print Assumptions C61_gap_refuted.

(** {"a": [1, undefined, "x"], "b": undefined, "c": {}} with a gap of one space *)
Definition sample_tree : sval :=
  SObj [(zs "a", SArr [SNumber true (zs "1"); SUndef; SString (zs "x")]); (zs "b", SUndef); (zs "c", SObj [])].
Example C61_witness :
  denotes sample_tree (Some (JObj (properties [(zs "a", JArr [JNum false 10 (zs "1"); JNull; JStr (zs "x")]); (zs "c", JObj (properties []))]))) /\
  gap_spaces (Some [32]) /\
  json_stringify (Some [32]) sample_tree =
    SOk (Some (zs "{" ++ [10] ++ zs " ""a"": [" ++ [10] ++ zs "  1," ++ [10] ++ zs "  null," ++ [10] ++ zs "  ""x""" ++ [10] ++
               zs " ]," ++ [10] ++ zs " ""c"": {}" ++ [10] ++ zs "}")).
Proof.
  split; [|split; [apply (repeat_spaces 1)|vm_compute; reflexivity]].
  assert (U : forall s, forallb (fun c => (0 <=? c) && (c <=? 0xffff)) s = true -> Forall (fun c => 0 <= c <= 0xffff) s).
  { intros s H. apply Forall_forall. intros c I. apply (proj1 (forallb_forall _ _) H) in I. apply andb_prop in I. destruct I as [A B]. apply Z.leb_le in A, B. lia. }
  apply D_obj. apply DM_some; [apply U; reflexivity| |].
  - apply D_arr. apply DL_some; [|apply DL_none; [constructor|apply DL_some; [constructor; apply U; reflexivity|constructor]]].
    apply D_fin. split; [reflexivity|]. exists (zs "1"), [], []. split; [reflexivity|]. split; [|split; left; reflexivity].
    right. exists 49, []. split; [reflexivity|]. split; [lia|constructor].
  - apply DM_none; [constructor|]. apply DM_some; [apply U; reflexivity| |constructor]. apply D_obj. constructor.
Qed.

(** ** C62: reading and pushing back characters *)

(** Every text has its characters, and every use of the input that pushes back only what was
    read gives them in order, stays inside the text and ends where the pushed back characters begin. *)
Theorem C62_characters_exist : forall crlf s, Forall unit16 s -> exists l, decoded crlf s l.
Proof. intros crlf s F. apply (decoded_total crlf (List.length s)); auto. Qed.
Print Assumptions C62_characters_exist.

Theorem C62_get_unget : forall crlf s l, decoded crlf s l -> forall ops n h, steps l 0 [] ops n h ->
  exists i, run s crlf ops input_init [] = IOk (i, h) /\ pos i = offset l n.
Proof. intros crlf s l D ops n h St. apply (run_steps s crlf l D ops 0 [] n h St); [lia|reflexivity]. Qed.
Print Assumptions C62_get_unget.

(** Reading a character again after a push-back gives the same state, line and column included. *)
Theorem C62_reread : forall crlf s l, decoded crlf s l -> forall ops n h i, steps l 0 [] ops n h ->
  run s crlf ops input_init [] = IOk (i, h) ->
  forall c i1, get_uc s crlf i = IOk (c, i1) -> 0 <= c ->
  exists i2, unget_uc s crlf i1 c = IOk i2 /\ get_uc s crlf i2 = IOk (c, i1).
Proof.
  intros crlf s l D ops n h i St R c i1 G C.
  destruct (C62_get_unget crlf s l D ops n h St) as (i' & R' & P). rewrite R in R'. inversion R'; subst i'.
  destruct (nth_error l n) as [[c0 u]|] eqn:N.
  - pose proof (get_step s crlf l D i n c0 u P N) as [G' _]. rewrite G in G'. inversion G'; subst.
    pose proof (unget_step s crlf l D (Input (offset l (S n)) (fst (fresh_col i)) (snd (fresh_col i) + 1) (is_line_terminator c0)) n c0 u c0 eq_refl N C) as U.
    eexists. split; [exact U|]. eapply reread; eauto.
  - rewrite (get_end s crlf l D i n P N) in G. inversion G; subst. lia.
Qed.
Print Assumptions C62_reread.

(** The line and column after reading. *)
Theorem C62_location : forall crlf s l, decoded crlf s l -> forall n, (n <= List.length l)%nat ->
  exists i, run s crlf (repeat true n) input_init [] = IOk (i, rev (map fst (firstn n l))) /\
    located (map fst (firstn n l)) (line i) (column i).
Proof.
  intros crlf s l D n L. destruct (run_located s crlf l D n L) as (i & R & _ & Lo & _). eauto.
Qed.
Print Assumptions C62_location.

(** The JSON model reads the same characters from the list of the units left. *)
Theorem C62_list_view : forall s i, (pos i <= List.length s)%nat ->
  exists c i', get_uc s true i = IOk (c, i') /\ get (skipn (pos i) s) = (c, skipn (pos i') s) /\ (pos i' <= List.length s)%nat.
Proof. exact get_list. Qed.
Print Assumptions C62_list_view.

(** a carriage return and line feed, a pair and an unpaired surrogate; all read, three pushed back *)
Example C62_witness :
  let s := [97; 13; 10; 0xd83d; 0xde00; 0xd800; 13] in
  let l := [(97, [97]); (10, [13; 10]); (0x1f600, [0xd83d; 0xde00]); (0xd800, [0xd800]); (10, [13])] in
  decoded true s l /\ steps l 0 [] [true; true; true; true; true; true; false; false; false] 3 [0x1f600; 10; 97] /\
  run s true [true; true; true; true; true; true; false; false; false] input_init [] = IOk (Input 5 3 (-2) false, [0x1f600; 10; 97]).
Proof.
  cbv zeta. split; [|split; [|vm_compute; reflexivity]].
  - apply D_one; [lia|unfold high; lia|intuition lia|]. apply D_crlf; [reflexivity|].
    apply D_pair; [unfold high; lia|unfold low; lia|reflexivity|].
    apply D_one; [lia|intros [_ (c & r & E & Lw)]; inversion E; subst; unfold low in Lw; lia|intuition lia|].
    apply D_cr; [reflexivity|intros (c & r & E & _); discriminate|constructor].
  - repeat (eapply S_get; [reflexivity|]). apply S_end; [reflexivity|]. apply S_unget_end. apply S_unget; [lia|]. apply S_unget; [lia|]. constructor.
Qed.
