(** * Properties of the conversions from texts to numbers *)
Require Import ZArith QArith List Bool Lia.
From Verif Require Import DtoaModel DtoaSpec LexNumModel LexNumSpec LexNumRound LexNumScan LexNumString LexNumConvert
  LexNumBig LexNumTrip LexNumParse.
From Verif Require StrModel StrSpec BigModel BigSpec.
Import ListNotations.
Local Open Scope Z_scope.

(** Identifier characters of ASCII, for the examples. *)
Definition ascii_start (c : Z) : bool := letter c || (c =? 36) || (c =? 95).
Definition ascii_continue (c : Z) : bool := letter c || is_digit c || (c =? 36) || (c =? 95).
Lemma ascii_words : words ascii_start ascii_continue.
Proof.
  split; [reflexivity|reflexivity|]. intros c H. unfold StrSpec.es_space in H. cbn [In] in H.
  repeat (destruct H as [<-|H]; [split; reflexivity|]). contradiction.
Qed.

Definition num_eqb (a b : num) : bool :=
  match a, b with
  | Zero g, Zero h => Bool.eqb g h
  | Fin g m e, Fin h n f => Bool.eqb g h && (m =? n) && (e =? f)
  | Inf g, Inf h => Bool.eqb g h
  | Nan, Nan => true
  | _, _ => false
  end.
Lemma num_differ : forall a b, num_eqb a b = false -> a <> b.
Proof.
  intros a b H E. subst b. destruct a as [g|g m e|g|]; cbn in H; try discriminate; rewrite ?Bool.eqb_reflx, ?Z.eqb_refl in H; discriminate.
Qed.

(** The characters of the strings that are numbers *)
Definition number_char (c : Z) : Prop := digit_in 36 c \/ c = 43 \/ c = 45 \/ c = 46.

Lemma digits_chars : forall r w, r <= 36 -> digits r w -> Forall number_char w.
Proof. intros r w R H. eapply Forall_impl; [|exact H]. intros c Hc. left. unfold digit_in in *. lia. Qed.

Lemma sign_chars : forall sg neg, sign_text sg neg -> Forall number_char sg.
Proof.
  intros sg neg H. inversion H; subst; [constructor| |]; (constructor; [right; lia|constructor]).
Qed.

Lemma exponent_chars : forall x e, exponent_of x e -> Forall number_char x.
Proof.
  intros x e H. inversion H; subst; [constructor|].
  constructor; [left; destruct H0 as [-> | ->]; reflexivity|].
  apply Forall_app. split; [eapply sign_chars; eassumption|eapply digits_chars; [|eassumption]; lia].
Qed.

Lemma literal_chars : forall w v, str_literal w v -> Forall number_char w.
Proof.
  intros w v H. inversion H as [sg neg w' D E v' SG DE R|sg neg SG|p r w' v' RP NW DW R]; subst.
  - apply Forall_app. split; [eapply sign_chars; eassumption|]. inversion DE; subst.
    + apply Forall_app. split; [eapply digits_chars; [|eassumption]; lia|eapply exponent_chars; eassumption].
    + apply Forall_app. split; [eapply digits_chars; [|eassumption]; lia|]. constructor; [unfold number_char; auto|].
      apply Forall_app. split; [eapply digits_chars; [|eassumption]; lia|eapply exponent_chars; eassumption].
  - apply Forall_app. split; [eapply sign_chars; eassumption|]. repeat constructor.
  - apply Forall_app. split.
    + destruct RP as [[_ [-> | ->]]|[[_ [-> | ->]]|[_ [-> | ->]]]]; repeat constructor.
    + eapply digits_chars; [|exact DW]. pose proof (radix_base _ _ RP). lia.
Qed.

Lemma string_chars : forall s v c, string_number s v -> In c s -> StrSpec.es_space c \/ number_char c.
Proof.
  intros s v c [[H _]|(a & w & b & -> & Ha & Hb & L)] I.
  - left. unfold white in H. rewrite Forall_forall in H. apply H. exact I.
  - pose proof (literal_chars _ _ L) as F. unfold white in Ha, Hb. rewrite Forall_forall in Ha, Hb, F.
    apply in_app_or in I. destruct I as [I|I]; [left; apply Ha; exact I|].
    apply in_app_or in I. destruct I as [I|I]; [right; apply F; exact I|left; apply Hb; exact I].
Qed.

Lemma alien : forall s c, In c s -> ~ StrSpec.es_space c -> ~ number_char c -> number_of_string s Nan.
Proof.
  intros s c I N1 N2. right. split; [|reflexivity]. intros u H.
  destruct (string_chars s u c H I); contradiction.
Qed.

Ltac not_space := intros NS; unfold StrSpec.es_space in NS; cbn [In] in NS; lia.
Ltac not_char := intros NC; unfold number_char, digit_in in NC; revert NC; cbv; intuition discriminate.

(** ** C103: StringToNumber *)
Theorem C103_convert_partial : forall id_start id_continue s v, words id_start id_continue ->
  plain s -> sign_adjacent s -> len s <= 19000 -> small_radix s ->
  (string_to_number id_start id_continue s = v <-> number_of_string s v).
Proof. intros i c s v W. apply convert_exact. exact W. Qed.
Print Assumptions C103_convert_partial.

(** Every string that is a number is converted to it, comments or not. *)
Theorem C103_complete : forall id_start id_continue s v, words id_start id_continue ->
  string_number s v -> len s <= 19000 -> small_radix s -> string_to_number id_start id_continue s = v.
Proof. intros i c s v W. apply convert_complete. exact W. Qed.
Print Assumptions C103_complete.

(** " -12.5e-1\n" and "0x1F" *)
Example C103_witness : words ascii_start ascii_continue /\
  (let s := [32; 45; 49; 50; 46; 53; 101; 45; 49; 10] in
   plain s /\ sign_adjacent s /\ len s <= 19000 /\ small_radix s /\
   string_to_number ascii_start ascii_continue s = Fin true 5629499534213120 (-52)) /\
  string_to_number ascii_start ascii_continue [48; 120; 49; 70] = Fin false 8725724278030336 (-48) /\
  string_number [48; 120; 49; 70] (to_double false 31 1).
Proof.
  split; [exact ascii_words|]. split; [|split; [vm_compute; reflexivity|]].
  - cbv zeta. split; [repeat split; cbn [In]; lia|]. split.
    { intros a c d b E Ha HC. destruct a as [|x [|y a]]; cbn [app] in E.
      - injection E as <- _. lia.
      - injection E as <- <- <- <-. not_space.
      - injection E as <- <- _. exfalso. inversion Ha as [|? ? _ Ha1]. inversion Ha1 as [|? ? HX _].
        revert HX. not_space. }
    split; [cbn; lia|]. split; [|vm_compute; reflexivity].
    intros a p r w b E Ha RP DW. exfalso. assert (I : exists c, In c p /\ (c = 98 \/ c = 66 \/ c = 111 \/ c = 79 \/ c = 120 \/ c = 88)).
    { destruct RP as [[_ [-> | ->]]|[[_ [-> | ->]]|[_ [-> | ->]]]]; eexists; (split; [right; left; reflexivity|]); lia. }
    destruct I as (c & I & C).
    assert (In c [32; 45; 49; 50; 46; 53; 101; 45; 49; 10]).
    { rewrite E. apply in_or_app. right. apply in_or_app. left. exact I. }
    cbn [In] in H. lia.
  - right. exists [], [48; 120; 49; 70], []. split; [reflexivity|]. split; [constructor|]. split; [constructor|].
    apply (sl_radix [48; 120] 16 [49; 70]); [right; right; auto|discriminate|repeat constructor|].
    apply (int_double_spec false 31). lia.
Qed.

(** "+ 5" *)
Theorem C103_sign_refuted : exists s v, plain s /\ len s <= 19000 /\ number_of_string s v /\
  string_to_number ascii_start ascii_continue s <> v.
Proof.
  exists [43; 32; 53], Nan. split; [repeat split; cbn [In]; lia|]. split; [cbn; lia|]. split.
  - right. split; [|reflexivity]. intros u [[H _]|(a & w & b & E & Ha & Hb & L)].
    + inversion H as [|? ? Hc _]. revert Hc. not_space.
    + destruct a as [|x a]; [|injection E as <- _; inversion Ha as [|? ? Hc _]; revert Hc; not_space].
      cbn [app] in E.
      inversion L as [sg neg w' D X v' SG DE R|sg neg SG|p r w' v' RP NW DW R]; subst.
      * destruct (decimal_head _ _ _ DE) as [(c & t & -> & C)|(c & t & -> & C)];
        inversion SG; subst sg; cbn [app] in E; injection E as E; try discriminate; subst c; discriminate.
      * inversion SG; subst sg; discriminate.
      * destruct (prefix_head _ _ RP) as (c & ->). discriminate.
  - apply num_differ. vm_compute. reflexivity.
Qed.
Print Assumptions C103_sign_refuted.

(** "1//" and "/**/" *)
Theorem C103_comment_refuted :
  (number_of_string [49; 47; 47] Nan /\ string_to_number ascii_start ascii_continue [49; 47; 47] <> Nan) /\
  (number_of_string [47; 42; 42; 47] Nan /\ string_to_number ascii_start ascii_continue [47; 42; 42; 47] = Zero false).
Proof.
  split; (split; [|]).
  - apply (alien _ 47); [cbn; auto|not_space|not_char].
  - apply num_differ. vm_compute. reflexivity.
  - apply (alien _ 47); [cbn; auto|not_space|not_char].
  - vm_compute. reflexivity.
Qed.
Print Assumptions C103_comment_refuted.

(** "Infinity" *)
Theorem C103_escape_refuted : exists s, number_of_string s Nan /\
  string_to_number ascii_start ascii_continue s = Inf false.
Proof.
  exists [92; 117; 48; 48; 52; 57; 110; 102; 105; 110; 105; 116; 121]. split; [|vm_compute; reflexivity].
  apply (alien _ 92); [cbn; auto|not_space|not_char].
Qed.
Print Assumptions C103_escape_refuted.

(** U+0085 is taken for white space. *)
Theorem C103_space_refuted : exists s, number_of_string s Nan /\
  string_to_number ascii_start ascii_continue s <> Nan.
Proof.
  exists [49; 0x85]. split; [|apply num_differ; vm_compute; reflexivity].
  apply (alien _ 0x85); [cbn; auto|not_space|not_char].
Qed.
Print Assumptions C103_space_refuted.

(** 0x200000000000011: rounded after every digit *)
Theorem C103_radix_refuted : exists s v, plain s /\ number_of_string s v /\
  string_to_number ascii_start ascii_continue s <> v.
Proof.
  exists ([48; 120] ++ [50; 48; 48; 48; 48; 48; 48; 48; 48; 48; 48; 48; 48; 49; 49]),
    (to_double false 0x200000000000011 1).
  split; [repeat split; cbn [In app]; lia|]. split.
  - left. right. exists [], ([48; 120] ++ [50; 48; 48; 48; 48; 48; 48; 48; 48; 48; 48; 48; 48; 49; 49]), [].
    split; [reflexivity|]. split; [constructor|]. split; [constructor|].
    apply (sl_radix [48; 120] 16); [right; right; auto|discriminate|repeat constructor|].
    apply int_double_spec. lia.
  - apply num_differ. vm_compute. reflexivity.
Qed.
Print Assumptions C103_radix_refuted.

(** ** C104: StringToBigInt *)
Theorem C104_convert_partial : forall id_start id_continue s z, words id_start id_continue ->
  plain s -> sign_adjacent s ->
  ((exists b, string_to_big_int id_start id_continue s = Some b /\ BigSpec.normal b /\ BigSpec.value b = z) <->
   string_integer s z).
Proof. intros i c s z W. apply big_exact. exact W. Qed.
Print Assumptions C104_convert_partial.

Theorem C104_complete : forall id_start id_continue s z, words id_start id_continue -> string_integer s z ->
  exists b, string_to_big_int id_start id_continue s = Some b /\ BigSpec.normal b /\ BigSpec.value b = z.
Proof. intros i c s z W. apply big_complete. exact W. Qed.
Print Assumptions C104_complete.

(** " -0012" and "0b101" *)
Example C104_witness :
  (let s := [32; 45; 48; 48; 49; 50] in plain s /\ sign_adjacent s /\ string_integer s (-12)) /\
  string_integer [48; 98; 49; 48; 49] 5.
Proof.
  split.
  - cbv zeta. split; [repeat split; cbn [In]; lia|]. split.
    + intros a c d b E Ha HC. destruct a as [|x [|y a]]; cbn [app] in E.
      * injection E as <- _. lia.
      * injection E as <- <- <- <-. not_space.
      * injection E as <- <- _. exfalso. inversion Ha as [|? ? _ Ha1]. inversion Ha1 as [|? ? HX _].
        revert HX. not_space.
    + right. exists [32], ([45] ++ [48; 48; 49; 50]), []. split; [reflexivity|].
      split; [constructor; [unfold StrSpec.es_space; cbn [In]; lia|constructor]|]. split; [constructor|].
      apply (il_decimal [45] true [48; 48; 49; 50]); [constructor|discriminate|repeat constructor].
  - right. exists [], ([48; 98] ++ [49; 48; 49]), []. split; [reflexivity|]. split; [constructor|]. split; [constructor|].
    apply (il_radix [48; 98] 2 [49; 48; 49]); [left; auto|discriminate|repeat constructor].
Qed.

(** BigInt("- 5"), BigInt("1//") *)
Theorem C104_refuted :
  (exists b, string_to_big_int ascii_start ascii_continue [45; 32; 53] = Some b /\ forall z, ~ string_integer [45; 32; 53] z) /\
  (exists b, string_to_big_int ascii_start ascii_continue [49; 47; 47] = Some b /\ forall z, ~ string_integer [49; 47; 47] z).
Proof.
  split; (eexists; split; [vm_compute; reflexivity|]); intros z [[H _]|(a & w & b & E & Ha & Hb & L)].
  - inversion H as [|? ? Hc _]. revert Hc. not_space.
  - destruct a as [|x a]; [|injection E as <- _; inversion Ha as [|? ? Hc _]; revert Hc; not_space]. cbn [app] in E.
    inversion L as [sg neg w' SG NW DW|p r w' RP NW DW]; subst.
    + destruct w' as [|c w']; [contradiction|]. inversion DW as [|? ? D1 _]. subst.
      inversion SG; subst sg; cbn [app] in E; injection E as E; try discriminate; subst c; discriminate.
    + destruct (prefix_head _ _ RP) as (c & ->). discriminate.
  - inversion H as [|? ? Hc _]. revert Hc. not_space.
  - destruct a as [|x a]; [|injection E as <- _; inversion Ha as [|? ? Hc _]; revert Hc; not_space]. cbn [app] in E.
    assert (F : Forall (fun c => digit_in 36 c \/ c = 45 \/ c = 43) w).
    { inversion L as [sg neg w' SG NW DW|p r w' RP NW DW]; subst.
      - apply Forall_app. split; [inversion SG; subst; [constructor| |]; (constructor; [right; lia|constructor])|].
        eapply Forall_impl; [|exact DW]. intros c Hc. left. unfold digit_in in *. lia.
      - apply Forall_app. split.
        + destruct RP as [[_ [-> | ->]]|[[_ [-> | ->]]|[_ [-> | ->]]]]; repeat constructor.
        + pose proof (radix_base _ _ RP). eapply Forall_impl; [|exact DW]. intros c Hc. left. unfold digit_in in *. lia. }
    assert (I : In 47 (w ++ b)) by (rewrite <- E; cbn; auto).
    unfold white in Hb. rewrite Forall_forall in F, Hb. apply in_app_or in I. destruct I as [I|I].
    + apply F in I. revert I. unfold digit_in. cbv. intuition discriminate.
    + apply Hb in I. revert I. not_space.
Qed.
Print Assumptions C104_refuted.

(** ** C106: parseInt *)
Theorem C106_parse_int_partial : forall s radix a sg neg p r w t, ~ In 0x85 s -> len s <= 19000 ->
  radix = 0 \/ 2 <= radix <= 36 -> int_parts s radix a sg neg p r w t ->
  (w <> [] -> (if r =? 10 then no_more t else number_of r w <= 2 ^ 53) ->
     exists v, rounds neg (inject_Z (number_of r w)) v /\ int_of_string s radix v /\ parse_int s radix = int_result v) /\
  (w = [] -> (if r =? 10 then begins (Z.eqb 46) t = false else sg ++ p = []) ->
     int_of_string s radix Nan /\ parse_int s radix = Nan).
Proof.
  intros s radix a sg neg p r w t N L HR P. destruct (parse_int_exact s radix a sg neg p r w t N L HR P) as [A B].
  split; intros HW G.
  - assert (R : rounds neg (inject_Z (number_of r w)) (to_double neg (number_of r w) 1)).
    { apply int_double_spec. apply number_bound; [|exact (parts_digits _ _ _ _ _ _ _ _ _ P)].
      destruct (parts_radix _ _ _ _ _ _ _ _ _ P) as [(_ & _ & ->)|(_ & _ & ->)]; [lia|]. destruct (Z.eqb_spec radix 0); lia. }
    exists (to_double neg (number_of r w) 1). split; [exact R|]. split; [|apply A; assumption].
    right. split; [exact HR|]. exists a, sg, neg, p, r, w, t. split; [exact P|]. right. auto.
  - split; [|apply B; assumption]. right. split; [exact HR|]. exists a, sg, neg, p, r, w, t. split; [exact P|]. left. auto.
Qed.
Print Assumptions C106_parse_int_partial.

Theorem C106_radix : forall s radix, radix <> 0 -> ~ 2 <= radix <= 36 ->
  int_of_string s radix Nan /\ parse_int s radix = Nan.
Proof.
  intros s radix N R. split; [left; auto|]. unfold parse_int.
  replace (negb (radix =? 0) && ((radix <? 2) || (36 <? radix))) with true by lia. reflexivity.
Qed.
Print Assumptions C106_radix.

Ltac parts :=
  match goal with |- int_parts _ _ _ _ _ _ _ _ _ =>
    split; [reflexivity|repeat constructor; unfold StrSpec.es_space; cbn [In]; lia
           |intros ? ? Q; cbn [app] in Q; injection Q as <- _; not_space
           |constructor
           |try discriminate; intros _ ? ? Q; cbn [app] in Q; injection Q as <- _; lia
           |
           |repeat constructor
           |] end.

(** " -0x1fg" with radix 16 *)
Example C106_witness :
  let s := [32; 45; 48; 120; 49; 102; 103] in
  ~ In 0x85 s /\ len s <= 19000 /\ int_parts s 16 [32] [45] true [48; 120] 16 [49; 102] [103] /\
  number_of 16 [49; 102] <= 2 ^ 53 /\ parse_int s 16 = Fin true 8725724278030336 (-48).
Proof.
  cbv zeta. split; [cbn [In]; lia|]. split; [cbn; lia|]. split; [|split; [vm_compute; discriminate|vm_compute; reflexivity]].
  parts.
  - left. auto.
  - intros c u Q. injection Q as <- _. unfold digit_in. cbv. discriminate.
Qed.

(** parseInt("3.7") *)
Theorem C106_fraction_refuted : exists s v, len s <= 19000 /\ int_of_string s 10 v /\ parse_int s 10 <> v.
Proof.
  exists [51; 46; 55], (to_double false 3 1). split; [cbn; lia|]. split.
  - right. split; [lia|]. exists [], [], false, [], 10, [51], [46; 55]. split.
    + parts.
      * right. split; [reflexivity|]. split; [lia|reflexivity].
      * intros c u Q. injection Q as <- _. unfold digit_in. cbv. discriminate.
    + right. split; [discriminate|]. apply (int_double_spec false 3). lia.
  - apply num_differ. vm_compute. reflexivity.
Qed.
Print Assumptions C106_fraction_refuted.

(** parseInt("1e3") *)
Theorem C106_exponent_refuted : exists s v, len s <= 19000 /\ int_of_string s 0 v /\ parse_int s 0 <> v.
Proof.
  exists [49; 101; 51], (to_double false 1 1). split; [cbn; lia|]. split.
  - right. split; [lia|]. exists [], [], false, [], 10, [49], [101; 51]. split.
    + parts.
      * right. split; [reflexivity|]. split; [|reflexivity]. intros _ t. cbn [app]. split; discriminate.
      * intros c u Q. injection Q as <- _. unfold digit_in. cbv. discriminate.
    + right. split; [discriminate|]. apply (int_double_spec false 1). lia.
  - apply num_differ. vm_compute. reflexivity.
Qed.
Print Assumptions C106_exponent_refuted.

(** parseInt("0x") and parseInt("-", 16) *)
Theorem C106_empty_refuted :
  (int_of_string [48; 120] 16 Nan /\ parse_int [48; 120] 16 = Zero false) /\
  (int_of_string [45] 16 Nan /\ parse_int [45] 16 = Zero true).
Proof.
  split; (split; [|vm_compute; reflexivity]); right; (split; [lia|]).
  - exists [], [], false, [48; 120], 16, [], []. split; [|left; auto]. parts; [left; auto|discriminate].
  - exists [], [45], true, [], 16, [], []. split; [|left; auto]. parts; [|discriminate].
    right. split; [reflexivity|]. split; [|reflexivity]. intros _ t. split; discriminate.
Qed.
Print Assumptions C106_empty_refuted.

(** parseInt has no infinite values. *)
Theorem C106_never_infinite : forall s radix g, parse_int s radix <> Inf g.
Proof.
  intros s radix g. unfold parse_int. destruct (negb (radix =? 0) && ((radix <? 2) || (36 <? radix))); [discriminate|].
  destruct (c_string (trim s)) as [|c u]; [discriminate|]. destruct (strtoi (c :: u) radix) as [d r].
  destruct (same_place r (c :: u)); [discriminate|]. destruct d; discriminate.
Qed.
Print Assumptions C106_never_infinite.

(** parseInt of 1 followed by 256 zeros, radix 16 *)
Theorem C106_overflow_refuted : exists s v, int_of_string s 16 v /\ parse_int s 16 <> v.
Proof.
  exists (49 :: repeat 48 256), (Inf false). split; [|apply C106_never_infinite].
  right. split; [lia|]. exists [], [], false, [], 16, (49 :: repeat 48 256), []. split.
  - split; [rewrite app_nil_r; reflexivity|constructor| |constructor| | | |discriminate].
    + intros c r Q. cbn [app] in Q. injection Q as <- _. not_space.
    + intros _ c u Q. cbn [app] in Q. injection Q as <- _. lia.
    + right. split; [reflexivity|]. split; [|reflexivity]. intros _ t. cbn [app]. split; discriminate.
    + constructor; [reflexivity|]. apply Forall_forall. intros x I. apply repeat_spec in I. subst x. reflexivity.
  - right. split; [discriminate|]. cbn [rounds]. split; [reflexivity|]. vm_compute. discriminate.
Qed.
Print Assumptions C106_overflow_refuted.

(** parseInt("200000000000011", 16) *)
Theorem C106_rounding_refuted : exists s v, len s <= 19000 /\ int_of_string s 16 v /\ parse_int s 16 <> v.
Proof.
  exists [50; 48; 48; 48; 48; 48; 48; 48; 48; 48; 48; 48; 48; 49; 49], (to_double false 0x200000000000011 1).
  split; [cbn; lia|]. split.
  - right. split; [lia|].
    exists [], [], false, [], 16, [50; 48; 48; 48; 48; 48; 48; 48; 48; 48; 48; 48; 48; 49; 49], []. split.
    + parts; [|discriminate]. right. split; [reflexivity|]. split; [|reflexivity]. intros _ t. cbn [app]. split; discriminate.
    + right. split; [discriminate|].
      apply (int_double_spec false 0x200000000000011). lia.
  - apply num_differ. vm_compute. reflexivity.
Qed.
Print Assumptions C106_rounding_refuted.

(** ** C107: parseFloat *)
Theorem C107_parse_float_partial : forall erange s v i, ~ In 0x85 s -> len s <= 19000 -> proper_infinity s ->
  float_of_string s v i -> parse_float erange s = float_result erange v i.
Proof. exact parse_float_exact. Qed.
Print Assumptions C107_parse_float_partial.

(** There always is such a value. *)
Theorem C107_parse_float_total : forall erange s, ~ In 0x85 s -> len s <= 19000 -> proper_infinity s ->
  exists v i, float_of_string s v i /\ parse_float erange s = float_result erange v i.
Proof. exact parse_float_value. Qed.
Print Assumptions C107_parse_float_total.

Lemma float_read : forall t v r, begins is_c_space t = false -> no_space t -> len t <= 19000 -> proper_infinity t ->
  strtod t = (v, r) -> same_place r t = false -> float_of_string t v (opens t).
Proof.
  intros t v r NC NS L P E SP. destruct (strtod_float t NC L P) as [(w & v' & i & r' & ET & FL & ST & OP & NW & MX)|(NF & ST)].
  - rewrite E in ST. injection ST as <- <-. exists [], t. split; [reflexivity|]. split; [constructor|]. split; [exact NS|].
    left. exists w. rewrite OP. split; [|exact FL]. split; [exists r; exact ET|]. split; [exists v, i; exact FL|exact MX].
  - rewrite E in ST. injection ST as _ ->. unfold same_place in SP. rewrite Nat.eqb_refl in SP. discriminate.
Qed.

Lemma no_infinity : forall s, ~ In 73 s -> proper_infinity s.
Proof.
  intros s N a sg neg u Q HW HS. exfalso. apply N. rewrite Q.
  apply in_or_app. right. apply in_or_app. right. left. reflexivity.
Qed.

(** "1.5e3.x" *)
Example C107_witness : let s := [49; 46; 53; 101; 51; 46; 120] in
  ~ In 0x85 s /\ len s <= 19000 /\ proper_infinity s /\ float_of_string s (Fin false 6597069766656000 (-42)) false /\
  parse_float false s = Fin false 6597069766656000 (-42).
Proof.
  cbv zeta. split; [cbn [In]; lia|]. split; [cbn; lia|].
  assert (P : proper_infinity [49; 46; 53; 101; 51; 46; 120]) by (apply no_infinity; cbn [In]; lia).
  split; [exact P|]. split; [|vm_compute; reflexivity].
  change false with (opens [49; 46; 53; 101; 51; 46; 120]) at 2.
  apply (float_read _ _ [46; 120]); [reflexivity| |cbn; lia|exact P|vm_compute; reflexivity|reflexivity].
  intros c r Q. injection Q as <- _. not_space.
Qed.

(** parseFloat("1e309") *)
Theorem C107_overflow_refuted : exists s v, len s <= 19000 /\ proper_infinity s /\ float_of_string s v false /\
  parse_float false s <> v.
Proof.
  exists [49; 101; 51; 48; 57], (Inf false). split; [cbn; lia|].
  assert (P : proper_infinity [49; 101; 51; 48; 57]) by (apply no_infinity; cbn [In]; lia).
  split; [exact P|]. split; [|apply num_differ; vm_compute; reflexivity].
  change false with (opens [49; 101; 51; 48; 57]) at 2.
  apply (float_read _ _ []); [reflexivity| |cbn; lia|exact P|vm_compute; reflexivity|reflexivity].
  intros c r Q. injection Q as <- _. not_space.
Qed.
Print Assumptions C107_overflow_refuted.

(** parseFloat("Infinity") while errno is ERANGE *)
Theorem C107_errno_refuted :
  parse_float true infinity_text = Nan /\ parse_float false infinity_text = Inf false.
Proof. split; vm_compute; reflexivity. Qed.
Print Assumptions C107_errno_refuted.

(** parseFloat("Inf") *)
Theorem C107_infinity_refuted : exists s, len s <= 19000 /\ float_of_string s Nan false /\
  parse_float false s = Inf false.
Proof.
  exists [73; 110; 102]. split; [cbn; lia|]. split; [|vm_compute; reflexivity].
  exists [], [73; 110; 102]. split; [reflexivity|]. split; [constructor|].
  split; [intros c r Q; injection Q as <- _; not_space|]. right. split; [|auto].
  intros w r v i Q H. inversion H as [sg neg w' D E v' SG DE R|sg neg SG]; subst.
  - destruct (decimal_head _ _ _ DE) as [(c & t & -> & C)|(c & t & -> & C)]; inversion SG; subst sg; cbn [app] in Q;
    injection Q as Q; try discriminate; subst c; discriminate.
  - inversion SG; subst sg; discriminate.
Qed.
Print Assumptions C107_infinity_refuted.

(** ** C108: Number(String(x)) is x *)
Definition back (x : num) : num := match x with Zero _ => Zero false | _ => x end.

Theorem C108_round_trip_partial : forall id_start id_continue x t, words id_start id_continue -> valid x ->
  match x with Fin _ _ e => e <= 1 \/ 23 <= e | _ => True end ->
  number_to_string x = Some t -> string_to_number id_start id_continue t = back x.
Proof.
  intros i c x t W V G E. destruct x as [g|g m e|g|].
  - assert (t = [48]) by (destruct g; injection E as <-; reflexivity). subst t.
    apply (convert_complete i c W); [|cbn; lia|].
    + right. exists [], ([] ++ [48]), []. split; [reflexivity|]. split; [constructor|]. split; [constructor|].
      apply (sl_decimal [] false [48] 0 0); [constructor| |].
      * apply (dec_whole [48] [] 0); [discriminate|repeat constructor|constructor].
      * cbn [rounds back]. split; [reflexivity|]. vm_compute. discriminate.
    + intros a p r w b Q Ha RP _. exfalso. destruct (prefix_head _ _ RP) as (d & ->).
      assert (Q2 := f_equal (@length Z) Q). rewrite !app_length in Q2. cbn [length] in Q2. lia.
  - apply (trip_fin i c W g m e t V G E).
  - assert (t = (if g then [45] else []) ++ infinity_text) by (destruct g; injection E as <-; reflexivity). subst t.
    apply (convert_complete i c W); [|destruct g; cbn; lia|].
    + right. exists [], ((if g then [45] else []) ++ infinity_text), []. split; [rewrite app_nil_r; reflexivity|].
      split; [constructor|]. split; [constructor|]. apply sl_infinity. destruct g; constructor.
    + intros a p r w b Q Ha RP _. exfalso. destruct (prefix_head _ _ RP) as (d & ->).
      assert (I : In 48 ((if g then [45] else []) ++ infinity_text)).
      { rewrite Q. apply in_or_app. right. left. reflexivity. }
      destruct g; cbn in I; lia.
  - assert (t = [78; 97; 78]) by (injection E as <-; reflexivity). subst t.
    unfold string_to_number, signed_token, get_token. cbn [skip].
    change (78 =? 47) with false. change (StrModel.is_white_space 78) with false. cbv iota.
    change (78 =? 46) with false. change (78 =? 92) with false. cbn [orb Z.eqb Pos.eqb].
    change (is_digit 78) with false. cbv iota.
    rewrite (start_ascii _ _ W 78) by lia. change (letter 78 || (78 =? 36) || (78 =? 95)) with true. cbv iota.
    unfold lex_identifier. cbn [ident Z.eqb Pos.eqb].
    rewrite (continue_ascii _ _ W 78), (continue_ascii _ _ W 97) by lia.
    change (letter 78 || LexNumModel.is_digit 78 || (78 =? 36) || (78 =? 95)) with true.
    change (letter 97 || LexNumModel.is_digit 97 || (97 =? 36) || (97 =? 95)) with true. cbv iota.
    rewrite (start_ascii _ _ W 78) by lia. change (letter 78 || (78 =? 36) || (78 =? 95)) with true. reflexivity.
Qed.
Print Assumptions C108_round_trip_partial.

(** 0.1 *)
Example C108_witness :
  valid (Fin false 7205759403792794 (-56)) /\
  number_to_string (Fin false 7205759403792794 (-56)) = Some [48; 46; 49] /\
  string_to_number ascii_start ascii_continue [48; 46; 49] = Fin false 7205759403792794 (-56).
Proof. repeat split; try (left; lia); vm_compute; reflexivity. Qed.

(** 18014398509482012 comes back as 18014398509482008. *)
Theorem C108_refuted : exists x t, valid x /\ number_to_string x = Some t /\
  string_to_number ascii_start ascii_continue t <> x.
Proof.
  exists (Fin false 4503599627370503 2),
    [49; 56; 48; 49; 52; 51; 57; 56; 53; 48; 57; 52; 56; 50; 48; 49; 48].
  split; [left; lia|]. split; [vm_compute; reflexivity|]. apply num_differ. vm_compute. reflexivity.
Qed.
Print Assumptions C108_refuted.
