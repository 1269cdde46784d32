(** The lexer always ends and consumes its tokens; the parser always ends; the
    accepted token sequences. *)
From Coq Require Import List ZArith Bool Lia String.
From Verif Require Import StrModel StrProofs JsonModel JsonSpec JsonLexProofs JsonParseProofs.
Import ListNotations.
Local Open Scope Z_scope.

Notation len := (@List.length Z).

Definition fine {A} (rest : A -> str) (n : nat) (x : lres A) : Prop :=
  match x with LOk a => (len (rest a) <= n)%nat | LUB => True | LFuel => False end.

Lemma get_nil_end s c r : get s = (c, r) -> c <> -1 -> (len r < len s)%nat.
Proof.
  intros G N. destruct (get_len _ _ _ G) as [_ H]. apply H. intros ->. cbn in G. inversion G. congruence.
Qed.
Lemma get_le s c r : get s = (c, r) -> (len r <= len s)%nat.
Proof. intros G. apply (get_len _ _ _ G). Qed.

Ltac getit c r G := match goal with |- context [get ?s] => destruct (get s) as [c r] eqn:G end.

Lemma fine_le {A} (rest : A -> str) m n x : (m <= n)%nat -> fine rest m x -> fine rest n x.
Proof. destruct x; cbn; intros; auto; lia. Qed.

Lemma fine_bind {A B} (r1 : A -> str) (r2 : B -> str) m n x f :
  fine r1 m x -> (forall a, (len (r1 a) <= m)%nat -> fine r2 n (f a)) -> fine r2 n (lbind x f).
Proof. destruct x; cbn; auto. Qed.

Lemma line_comment_fine : forall fuel s, (len s < fuel)%nat -> fine (fun x => x) (len s) (line_comment fuel s).
Proof.
  induction fuel; intros s F; [lia|]. cbn [line_comment]. getit c r G.
  destruct ((c <? 0) || is_line_terminator c) eqn:E.
  - cbn. apply (get_le _ _ _ G).
  - assert (c <> -1) by (intros ->; discriminate E). pose proof (get_nil_end _ _ _ G H).
    eapply fine_le; [|apply IHfuel; lia]. lia.
Qed.

Lemma block_comment_fine : forall fuel s, (len s < fuel)%nat -> fine fst (len s) (block_comment fuel s).
Proof.
  induction fuel; intros s F; [lia|]. cbn [block_comment]. getit c r G.
  pose proof (get_le _ _ _ G).
  destruct (Z.eqb_spec c 42).
  - assert (c <> -1) as N by lia. pose proof (get_nil_end _ _ _ G N). getit c1 r1 G1. pose proof (get_le _ _ _ G1).
    destruct (c1 =? 47); [cbn; lia|]. eapply fine_le; [|apply IHfuel; lia]. lia.
  - destruct (Z.eqb_spec c (-1)); [cbn; lia|].
    pose proof (get_nil_end _ _ _ G n0). eapply fine_le; [|apply IHfuel; lia]. lia.
Qed.

Lemma octal_escape_le s : (len (snd (octal_escape s)) <= len s)%nat.
Proof.
  unfold octal_escape. getit c r G. getit c1 r1 G1. getit c2 r2 G2.
  apply get_le in G, G1, G2.
  repeat match goal with |- context [if ?b then _ else _] => destruct b end; cbn; lia.
Qed.

Lemma hex_digits_le templ : forall n s v app, (len (snd (hex_digits templ n s v app)) <= len s)%nat.
Proof.
  induction n; intros; cbn [hex_digits]; [cbn; lia|]. getit c r G. apply get_le in G.
  destruct (is_xdigit c); [|cbn; lia]. specialize (IHn r (Z.lor (Z.shiftl v 4) (hex_val c)) (append_uc app c)). lia.
Qed.

Lemma brace_digits_fine templ : forall fuel s v err app, (len s < fuel)%nat ->
  fine snd (len s) (brace_digits templ fuel s v err app).
Proof.
  induction fuel; intros s v err app F; [lia|]. cbn [brace_digits]. getit c r G. pose proof (get_le _ _ _ G).
  destruct (Z.eqb_spec c (-1)); [cbn; lia|]. pose proof (get_nil_end _ _ _ G n).
  destruct (c =? 125); [cbn; lia|]. destruct (is_xdigit c); [|cbn; lia].
  destruct (v <? 0); [exact I|]. destruct (_ <? _); (eapply fine_le; [|apply IHfuel; lia]; lia).
Qed.

Lemma unicode_escape_fine templ fuel s app : (len s < fuel)%nat -> fine snd (len s) (unicode_escape templ fuel s app).
Proof.
  intros F. unfold unicode_escape. getit c r G. pose proof (get_le _ _ _ G).
  destruct (c =? 123).
  - eapply fine_le; [|apply brace_digits_fine; lia]. lia.
  - cbn [fine]. apply hex_digits_le.
Qed.

Lemma lex_string_fine start : start <> -1 -> forall fuel s acc err, (len s < fuel)%nat ->
  fine snd (len s) (lex_string start fuel s acc err).
Proof.
  intros NS. induction fuel; intros s acc err F; [lia|]. cbn [lex_string]. getit c r G. pose proof (get_le _ _ _ G).
  destruct (c =? start); [cbn; lia|]. destruct (Z.eqb_spec c (-1)); [cbn; lia|].
  pose proof (get_nil_end _ _ _ G n).
  destruct (negb _ && negb _ && _); [cbn; lia|].
  assert (K : forall r2 acc2 e2, (len r2 <= len r)%nat -> fine snd (len s) (lex_string start fuel r2 acc2 e2)).
  { intros. eapply fine_le; [|apply IHfuel; lia]. lia. }
  destruct (c =? 92); [|apply K; lia].
  getit c1 r1 G1. pose proof (get_le _ _ _ G1).
  destruct (c1 =? -1); [cbn; lia|].
  do 6 (match goal with |- context [c1 =? ?k] => destruct (c1 =? k); [apply K; lia|] end).
  destruct (c1 =? 120).
  { pose proof (hex_digits_le false 2 r1 0 []). destruct (hex_digits false 2 r1 0 []) as [[[v e] a] r2]. cbn [snd] in *.
    destruct (0 <=? v); apply K; lia. }
  destruct (c1 =? 117).
  { eapply fine_bind; [apply (unicode_escape_fine false fuel r1 []); lia|].
    intros [[[v e] a] r2] L. cbn [snd] in L. destruct (0 <=? v); apply K; lia. }
  destruct (is_digit c1).
  { destruct (_ && _); [apply K; lia|]. destruct (_ || _); [apply K; lia|].
    pose proof (octal_escape_le r). destruct (octal_escape r) as [v r2]. cbn [snd] in *. apply K; lia. }
  destruct (negb _); apply K; lia.
Qed.

Lemma lex_template_fine : forall fuel s acc, (len s < fuel)%nat ->
  fine snd (len s) (lex_template fuel s acc).
Proof.
  induction fuel; intros s acc F; [lia|]. cbn [lex_template]. getit c r G. pose proof (get_le _ _ _ G).
  destruct (Z.eqb_spec c (-1)); [cbn; lia|]. destruct (c =? 96); [cbn; lia|].
  pose proof (get_nil_end _ _ _ G n).
  assert (K : forall r2 acc2, (len r2 <= len r)%nat -> fine snd (len s) (lex_template fuel r2 acc2)).
  { intros. eapply fine_le; [|apply IHfuel; lia]. lia. }
  destruct (c =? 92); [|apply K; lia].
  getit c1 r1 G1. pose proof (get_le _ _ _ G1).
  do 6 (match goal with |- context [c1 =? ?k] => destruct (c1 =? k); [apply K; lia|] end).
  destruct (c1 =? 120).
  { pose proof (hex_digits_le true 2 r1 0 (acc ++ [92; 120])). destruct (hex_digits true 2 r1 0 _) as [[[v e] a] r2]. cbn [snd] in *.
    destruct (0 <=? v); apply K; lia. }
  destruct (c1 =? 117).
  { eapply fine_bind; [apply (unicode_escape_fine true fuel r1); lia|].
    intros [[[v e] a] r2] L. cbn [snd] in L. destruct (0 <=? v); apply K; lia. }
  destruct (c1 =? 48); [destruct (negb _); apply K; lia|].
  destruct (is_digit c1); [apply K; lia|].
  destruct (is_line_terminator c1); apply K; lia.
Qed.

Lemma dec_digits_fine ns : forall fuel s dn cs acc, (len s < fuel)%nat ->
  fine (fun x => fst (fst (fst x))) (len s) (dec_digits ns fuel s dn cs acc).
Proof.
  induction fuel; intros s dn cs acc F; [lia|]. cbn [dec_digits]. getit c r G. pose proof (get_le _ _ _ G).
  destruct (Z.eqb_spec c (-1)) as [->|N].
  - cbn [Z.eqb]. rewrite andb_false_r. cbn. lia.
  - pose proof (get_nil_end _ _ _ G N).
    assert (K : forall d2 c2 a2, fine (fun x => fst (fst (fst x))) (len s) (dec_digits ns fuel r d2 c2 a2)).
    { intros. eapply fine_le; [|apply IHfuel; lia]. lia. }
    destruct (_ && _); [apply K|]. destruct (is_digit c); [apply K|]. cbn. lia.
Qed.

Lemma digit_in_end base : digit_in base (-1) = false.
Proof. unfold digit_in. repeat match goal with |- context [if ?b then _ else _] => destruct b end; reflexivity. Qed.

Lemma int_digits_fine legacy ns : forall fuel base s dn cs acc, (len s < fuel)%nat ->
  fine (fun x => match x with None => [] | Some (r, _, _) => r end) (len s) (int_digits legacy ns fuel base s dn cs acc).
Proof.
  induction fuel; intros base s dn cs acc F; [lia|]. cbn [int_digits]. getit c r G. pose proof (get_le _ _ _ G).
  destruct (Z.eqb_spec c (-1)) as [->|N].
  - rewrite digit_in_end. cbn [Z.eqb Pos.eqb is_digit Z.leb Z.compare andb orb]. rewrite !andb_false_r. cbn [andb].
    repeat match goal with |- context [if ?b then _ else _] => destruct b end; cbn; lia.
  - pose proof (get_nil_end _ _ _ G N).
    assert (K : forall b2 d2 c2 a2, fine (fun x => match x with None => [] | Some (r, _, _) => r end) (len s) (int_digits legacy ns fuel b2 r d2 c2 a2)).
    { intros. eapply fine_le; [|apply IHfuel; lia]. lia. }
    repeat match goal with |- context [if ?b then _ else _] => destruct b end; try apply K; cbn; lia.
Qed.

(** the digits do consume something *)
Lemma int_digits_first legacy ns fuel base s c r :
  get s = (c, r) -> digit_in base c = true -> (len s < fuel)%nat ->
  fine (fun x => match x with None => [] | Some (r, _, _) => r end) (len r) (int_digits legacy ns fuel base s false false []).
Proof.
  intros G D F. destruct fuel; [lia|]. cbn [int_digits]. rewrite G, andb_false_r, D.
  apply int_digits_fine. assert (c <> -1) by (intros ->; rewrite digit_in_end in D; discriminate).
  pose proof (get_nil_end _ _ _ G H). lia.
Qed.

Section Classes.
Variables ids idc : Z -> bool.
Hypothesis CL : id_classes ids idc.

Lemma number_end_le legacy fl base acc s : (len (snd (number_end ids legacy fl base acc s)) <= len s)%nat.
Proof.
  unfold number_end. getit c r G. apply get_le in G. destruct (_ && _).
  - getit c1 r1 G1. cbn. exact G.
  - cbn. lia.
Qed.

Lemma number_exp_fine legacy ns fl fuel acc s : (len s < fuel)%nat ->
  fine snd (len s) (number_exp ids legacy ns fl fuel acc s).
Proof.
  intros F. unfold number_exp. getit c r G. pose proof (get_le _ _ _ G).
  destruct ((c =? 101) || (c =? 69)).
  - getit c1 r1 G1. pose proof (get_le _ _ _ G1).
    destruct ((c1 =? 43) || (c1 =? 45)).
    + eapply fine_bind; [apply dec_digits_fine; lia|]. intros [[[s2 dn] cs] a2] L. cbn [fst] in L.
      destruct (negb dn); [cbn; lia|]. destruct (_ && _); [cbn; lia|]. cbn [fine].
      pose proof (number_end_le legacy true 10 a2 s2). lia.
    + eapply fine_bind; [apply dec_digits_fine; lia|]. intros [[[s2 dn] cs] a2] L. cbn [fst] in L.
      destruct (negb dn); [cbn; lia|]. destruct (_ && _); [cbn; lia|]. cbn [fine].
      pose proof (number_end_le legacy true 10 a2 s2). lia.
  - cbn [fine]. apply number_end_le.
Qed.

Lemma number_tail_fine legacy ns fuel base acc s : (len s < fuel)%nat ->
  fine snd (len s) (number_tail ids legacy ns fuel base acc s).
Proof.
  intros F. unfold number_tail. destruct (base =? 10); [|cbn [fine]; apply number_end_le].
  getit c r G. pose proof (get_le _ _ _ G). destruct (c =? 46).
  - eapply fine_bind; [apply dec_digits_fine; lia|]. intros [[[s2 dn] cs] a2] L. cbn [fst] in L.
    destruct (_ && _ && _); [cbn; lia|]. eapply fine_le; [|apply number_exp_fine; lia]. lia.
  - apply number_exp_fine. exact F.
Qed.

Lemma number_int_fine legacy ns fuel base s : (len s < fuel)%nat ->
  fine snd (len s) (number_int ids legacy ns fuel base s).
Proof.
  intros F. unfold number_int. eapply fine_bind; [apply int_digits_fine; lia|].
  intros [[[s2 a] b]|] L; cbn [fst] in L; [|cbn; lia]. eapply fine_le; [|apply number_tail_fine; lia]. lia.
Qed.

Lemma number_int_first legacy ns fuel base s c r :
  get s = (c, r) -> digit_in base c = true -> (len s < fuel)%nat ->
  fine snd (len r) (number_int ids legacy ns fuel base s).
Proof.
  intros G D F. pose proof (get_le _ _ _ G). unfold number_int. eapply fine_bind; [apply (int_digits_first _ _ _ _ _ _ _ G D F)|].
  intros [[[s2 a] b]|] L; cbn [fst] in L; [|cbn; lia]. eapply fine_le; [|apply number_tail_fine; lia]. lia.
Qed.

Lemma lex_number_fine fuel s c r : get s = (c, r) -> c = 46 \/ is_digit c = true -> (len s < fuel)%nat ->
  fine snd (len r) (lex_number ids fuel s).
Proof.
  intros G D F. pose proof (get_le _ _ _ G). unfold lex_number. rewrite G.
  destruct (Z.eqb_spec c 46) as [->|N].
  { unfold number_tail. rewrite G. cbn [Z.eqb Pos.eqb].
    eapply fine_bind; [apply dec_digits_fine; lia|]. intros [[[s2 dn] cs] a2] L. cbn [fst] in L.
    destruct (_ && _ && _); [cbn; lia|]. eapply fine_le; [|apply number_exp_fine; lia]. lia. }
  destruct D as [|D]; [congruence|].
  destruct (c =? 48).
  - getit c1 r1 G1. pose proof (get_le _ _ _ G1).
    do 3 (destruct (_ || _); [eapply fine_le; [|apply number_int_fine; lia]; lia|]).
    destruct (is_octal c1) eqn:O.
    + apply number_int_fine. assert (c1 <> -1) as Q by (intros ->; discriminate O). 
      destruct (Z.eqb_spec c (-1)); [subst; discriminate D|]. pose proof (get_nil_end _ _ _ G n). lia.
    + destruct (c1 =? 95); [cbn; lia|]. eapply number_int_first; eauto.
  - eapply number_int_first; eauto.
Qed.

Lemma id_rest_fine : forall fuel s acc, (len s < fuel)%nat -> fine snd (len s) (id_rest idc fuel s acc).
Proof.
  induction fuel; intros s acc F; [lia|]. cbn [id_rest]. getit c r G. pose proof (get_le _ _ _ G).
  destruct (Z.eqb_spec c (-1)) as [->|N].
  - cbn [Z.eqb]. destruct CL as (_ & -> & _). cbn. lia.
  - pose proof (get_nil_end _ _ _ G N).
    assert (K : forall r2 a2, (len r2 <= len r)%nat -> fine snd (len s) (id_rest idc fuel r2 a2)).
    { intros. eapply fine_le; [|apply IHfuel; lia]. lia. }
    destruct (c =? 92); [|destruct (idc c); [apply K; lia|cbn; lia]].
    getit c1 r1 G1. pose proof (get_le _ _ _ G1). destruct (c1 =? 117); [|cbn; lia].
    eapply fine_bind; [apply (unicode_escape_fine false fuel r1); lia|].
    intros [[[v e] a] r2] L. cbn [snd] in L.
    destruct (v <? 0); [cbn; lia|]. destruct e; [cbn; lia|]. destruct (idc v); [apply K; lia|cbn; lia].
Qed.

Lemma lex_identifier_fine fuel s c r : get s = (c, r) -> (len r < fuel)%nat ->
  fine snd (len r) (lex_identifier ids idc fuel s).
Proof.
  intros G F. unfold lex_identifier. rewrite G.
  assert (K : forall r2 a2, (len r2 <= len r)%nat ->
     fine (fun x : tres => snd x) (len r) (lbind (id_rest idc fuel r2 a2) (fun x => let '(acc, e, r) := x in LOk (TIdentifier acc, e, r)))).
  { intros. eapply fine_bind; [apply id_rest_fine; lia|]. intros [[a e] r3] L. cbn in *. lia. }
  destruct (c =? 92).
  - getit c1 r1 G1. pose proof (get_le _ _ _ G1). destruct (c1 =? 117); [|cbn; lia].
    eapply fine_bind; [apply (unicode_escape_fine false fuel r1); lia|].
    intros [[[v e] a] r2] L. cbn [snd] in L.
    destruct (v <? 0); [cbn; lia|]. destruct e; [cbn; lia|]. destruct (ids v); [apply K; lia|cbn; lia].
  - destruct (ids c); [apply K; lia|cbn; lia].
Qed.

Lemma skip_space_fine : forall fuel s err, (len s < fuel)%nat ->
  match skip_space fuel s err with
  | LOk (c, s0, r, _) => get s0 = (c, r) /\ (len s0 <= len s)%nat
  | LUB => True
  | LFuel => False
  end.
Proof.
  induction fuel; intros s err F; [lia|]. cbn [skip_space]. getit c r G. pose proof (get_le _ _ _ G).
  destruct (Z.eqb_spec c (-1)) as [->|N]; [auto|].
  pose proof (get_nil_end _ _ _ G N).
  assert (K : forall r2 e2, (len r2 <= len r)%nat -> match skip_space fuel r2 e2 with
    | LOk (c, s0, r, _) => get s0 = (c, r) /\ (len s0 <= len s)%nat | LUB => True | LFuel => False end).
  { intros r2 e2 L. specialize (IHfuel r2 e2 ltac:(lia)). destruct (skip_space fuel r2 e2) as [[[[c0 s0] r0] e0]| |]; auto.
    destruct IHfuel. split; [assumption|lia]. }
  destruct (c =? 47).
  - getit c1 r1 G1. pose proof (get_le _ _ _ G1). destruct (c1 =? 47).
    + pose proof (line_comment_fine fuel r1 ltac:(lia)) as Q. destruct (line_comment fuel r1); cbn in Q; try contradiction; cbn [lbind].
      * apply K. lia. * exact I.
    + destruct (c1 =? 42); [|auto].
      pose proof (block_comment_fine fuel r1 ltac:(lia)) as Q. destruct (block_comment fuel r1) as [[r2 e2]| |]; cbn in Q; try contradiction; cbn [lbind].
      * apply K. lia. * exact I.
  - destruct (is_white_space c); [apply K; lia|auto].
Qed.

(** One token: it ends, and every token but the last consumes something *)
Lemma lex_token_fine s :
  match lex_token ids idc (S (len s)) s with
  | LOk (t, e, r) => (len r <= len s)%nat /\ (e = false -> t <> TEnd -> (len r < len s)%nat)
  | LUB => True
  | LFuel => False
  end.
Proof.
  unfold lex_token. pose proof (skip_space_fine (S (len s)) s false ltac:(lia)) as Q.
  destruct (skip_space (S (len s)) s false) as [[[[c s0] r] err]| |]; try contradiction; cbn [lbind]; [|exact I].
  destruct Q as [G L0]. pose proof (get_le _ _ _ G).
  destruct (Z.eqb_spec c (-1)) as [->|N].
  { cbn. split; [lia|]. congruence. }
  pose proof (get_nil_end _ _ _ G N).
  assert (K : forall x : lres tres, fine (fun y => snd y) (len r) x ->
     match lbind x (fun y => let '(t, e, r') := y in LOk (t, err || e, r')) with
     | LOk (t, e, r) => (len r <= len s)%nat /\ (e = false -> t <> TEnd -> (len r < len s)%nat)
     | LUB => True | LFuel => False end).
  { intros x Hx. destruct x as [[[t e] r']| |]; cbn in *; auto. split; [lia|]. intros; lia. }
  destruct ((c =? 34) || (c =? 39)) eqn:Q1.
  { apply K. eapply fine_bind; [apply lex_string_fine; lia|]. intros [[a e] r2] L2. cbn in *. lia. }
  destruct (c =? 96).
  { apply K. eapply fine_bind; [apply lex_template_fine; lia|]. intros [[a e] r2] L2. cbn in *. lia. }
  destruct (Z.eqb_spec c 46).
  { apply K. eapply lex_number_fine; eauto. lia. }
  do 8 (match goal with |- context [c =? ?k] => destruct (c =? k); [apply K; cbn; lia|] end).
  destruct (c =? 92).
  { apply K. eapply lex_identifier_fine; eauto. lia. }
  destruct (is_digit c) eqn:D.
  { apply K. eapply lex_number_fine; eauto. lia. }
  destruct (ids c).
  { apply K. eapply lex_identifier_fine; eauto. lia. }
  cbn. split; [lia|]. rewrite orb_true_r. discriminate.
Qed.

Local Notation get_token := (get_token ids idc).
Local Notation parse_value := (parse_value ids idc).
Local Notation array_loop := (array_loop ids idc).
Local Notation object_loop := (object_loop ids idc).

(** Size of a parser state: the pending token counts one *)
Definition size (st : pst) : nat := (2 * len (snd st) + match fst st with None => 0 | Some _ => 1 end)%nat.

Lemma get_token_size st :
  match get_token st with
  | POk (t, st') => fst st' = None /\ (size st' <= size st)%nat /\ (fst st = None -> t <> TEnd -> (size st' + 2 <= size st)%nat) /\ (fst st <> None -> (size st' + 1 <= size st)%nat)
  | PFuel => False
  | _ => True
  end.
Proof.
  destruct st as [[t|] s]; unfold JsonModel.get_token.
  - cbn. repeat split; try lia; congruence.
  - pose proof (lex_token_fine s) as Q. destruct (lex_token ids idc (S (len s)) s) as [[[t e] r]| |]; auto.
    destruct e; auto. destruct Q as [Q1 Q2]. unfold size. cbn [fst snd]. repeat split; try lia; try congruence.
Qed.

Lemma parse_number_ends st : parse_json_number ids idc st <> PFuel.
Proof.
  unfold parse_json_number. pose proof (get_token_size st) as Q. destruct (get_token st) as [[t st']| | |]; cbn; try discriminate; [|contradiction].
  destruct t; try discriminate. repeat match goal with |- context [if ?b then _ else _] => destruct b end; discriminate.
Qed.
Lemma negate_ends v : negate v <> PFuel.
Proof. destruct v; discriminate. Qed.
Lemma parse_number_size st x : parse_json_number ids idc st = POk x -> (size (snd x) <= size st)%nat /\ fst (snd x) = None.
Proof.
  unfold parse_json_number. pose proof (get_token_size st) as Q. destruct (get_token st) as [[t st']| | |]; cbn [pbind]; try discriminate.
  destruct Q as (Q0 & Q1 & _). intros H.
  destruct t; try discriminate; [| |repeat match type of H with context [if ?b then _ else _] => destruct b end; try discriminate];
    inversion H; subst; cbn; auto.
Qed.

Definition ended {A} (n : nat) (x : pres (A * pst)) : Prop :=
  match x with
  | POk (_, st') => fst st' = None /\ (size st' <= n)%nat
  | PFuel => False
  | _ => True
  end.

Ltac tok st :=
  match goal with |- context [JsonModel.get_token ids idc ?s] =>
    let Q := fresh "Q" in let t := fresh "t" in
    pose proof (get_token_size s) as Q; destruct (get_token s) as [[t st]| | |]; cbn [pbind]; try exact I; try contradiction
  end.

Lemma parse_ends : forall f,
  (forall st, (size st + 2 <= f)%nat -> ended (size st - 1) (parse_value f st)) /\
  (forall st acc, fst st = None -> (size st + 2 <= f)%nat -> ended (size st) (array_loop f st acc)) /\
  (forall st acc, fst st = None -> (size st + 2 <= f)%nat -> ended (size st) (object_loop f st acc)).
Proof.
  induction f as [|f (IV & IA & IO)].
  { repeat split; intros; lia. }
  split; [|split].
  - intros st F. rewrite parse_value_S. tok st1. destruct Q as (N1 & S1 & S2 & S3).
    assert (S4 : t <> TEnd -> (size st1 + 1 <= size st)%nat).
    { intros NE. destruct (fst st) as [x|] eqn:E; [specialize (S3 ltac:(congruence))|specialize (S2 eq_refl NE)]; lia. }
    assert (Fin : forall v : jval, t <> TEnd -> ended (size st - 1) (POk (v, st1))).
    { intros v NE. specialize (S4 NE). cbn [ended]. split; [assumption|lia]. }
    destruct t; try exact I; try (apply Fin; discriminate); specialize (S4 ltac:(discriminate)).
    + specialize (IO st1 [] N1 ltac:(lia)). destruct (object_loop f st1 []) as [[l st2]| | |]; cbn [ended pbind] in *; auto. destruct IO. split; [assumption|lia].
    + specialize (IA st1 [] N1 ltac:(lia)). destruct (array_loop f st1 []) as [[l st2]| | |]; cbn [ended pbind] in *; auto. destruct IA. split; [assumption|lia].
    + pose proof (parse_number_ends st1) as PE. pose proof (parse_number_size st1) as PS.
      destruct (parse_json_number ids idc st1) as [[v st2]| | |]; cbn [ended] in *; auto; try congruence.
      destruct (PS _ eq_refl). cbn in *. split; [assumption|lia].
    + pose proof (parse_number_ends st1) as PE. pose proof (parse_number_size st1) as PS.
      destruct (parse_json_number ids idc st1) as [[v st2]| | |]; cbn [pbind]; cbn [ended]; auto.
      pose proof (negate_ends v). destruct (negate v); cbn in *; auto.
      destruct (PS _ eq_refl). cbn in *. split; [assumption|lia].
    + repeat match goal with |- context [if ?b then _ else _] => destruct b end; try exact I; apply Fin; discriminate.
  - intros st acc N F. rewrite array_loop_S. tok st1. destruct Q as (N1 & S1 & S2 & S3).
    assert (T : t = TRbracket \/ t <> TRbracket) by (destruct t; auto; right; discriminate).
    destruct T as [->|NR]; [cbn [ended]; split; [assumption|lia]|].
    assert (K : ended (size st) (pbind (parse_value f (unget_token t st1)) (fun pat => let '(v, st2) := pat in
        pbind (get_token st2) (fun pat0 => let '(t0, st0) := pat0 in
          match t0 with TRbracket => POk (acc ++ [v], st0) | TComma => array_loop f st0 (acc ++ [v]) | _ => PErr end)))).
    { assert (E : t = TEnd \/ t <> TEnd) by (destruct t; auto; right; discriminate).
      destruct E as [->|NE].
      - destruct f; [lia|]. rewrite parse_value_S. exact I.
      - specialize (S2 N NE). destruct st1 as [o s1]. cbn [fst] in N1. subst o.
        unfold unget_token. cbn [snd].
        assert (Z1 : (size (Some t, s1) + 1 <= size st)%nat) by (unfold size in *; cbn [fst snd] in *; lia).
        specialize (IV (Some t, s1) ltac:(lia)). destruct (parse_value f (Some t, s1)) as [[v st2]| | |]; cbn [ended pbind] in *; auto.
        destruct IV as [N2 Z2].
        tok st3. destruct Q as (N3 & S5 & _).
        destruct t0; try exact I.
        + cbn [ended]. split; [assumption|lia].
        + specialize (IA st3 (acc ++ [v]) N3 ltac:(lia)). destruct (array_loop f st3 _) as [[l st4]| | |]; cbn [ended] in *; auto.
          destruct IA; split; [assumption|lia]. }
    destruct t; try exact K. congruence.
  - intros st acc N F. rewrite object_loop_S. tok st1. destruct Q as (N1 & S1 & S2 & S3).
    assert (K : forall k, t <> TEnd -> ended (size st) (pbind (get_token st1) (fun pat => let '(t0, st0) := pat in
        match t0 with
        | TColon => pbind (parse_value f st0) (fun pat0 => let '(v, st2) := pat0 in
            pbind (get_token st2) (fun pat1 => let '(t1, st3) := pat1 in
              match t1 with TRbrace => POk (put k v acc, st3) | TComma => object_loop f st3 (put k v acc) | _ => PErr end))
        | _ => PErr end))).
    { intros k NE. specialize (S2 N NE). tok st2. destruct Q as (N2 & S4 & _). destruct t0; try exact I.
      specialize (IV st2 ltac:(lia)). destruct (parse_value f st2) as [[v st3]| | |]; cbn [ended pbind] in *; auto.
      destruct IV as [N3 Z3]. tok st4. destruct Q as (N4 & S5 & _).
      destruct t0; try exact I.
      - cbn [ended]. split; [assumption|lia].
      - specialize (IO st4 (put k v acc) N4 ltac:(lia)). destruct (object_loop f st4 _) as [[l st5]| | |]; cbn [ended] in *; auto.
        destruct IO; split; [assumption|lia]. }
    destruct t; try exact I.
    + cbn [ended]. split; [assumption|lia].
    + apply K. discriminate.
    + apply K. discriminate.
Qed.

Lemma json_parse_ends t : json_parse ids idc t <> PFuel.
Proof.
  unfold json_parse. destruct (parse_ends (2 * len t + 2)) as (IV & _ & _).
  specialize (IV (None, t)). unfold size in IV at 1. cbn [fst snd] in IV. specialize (IV ltac:(lia)).
  destruct (parse_value (2 * len t + 2) (None, t)) as [[v st]| | |]; cbn [pbind ended] in *; try discriminate; [|contradiction].
  pose proof (get_token_size st) as Q. destruct (get_token st) as [[tk st']| | |]; cbn [pbind]; try discriminate; [|contradiction].
  destruct tk; discriminate.
Qed.

(** ** The accepted token sequences *)
Inductive reads : pst -> list token -> pst -> Prop :=
| Rd_nil st : reads st [] st
| Rd_cons st t st1 ts st2 : get_token st = POk (t, st1) -> reads st1 ts st2 -> reads st (t :: ts) st2.

Lemma reads_app st a st1 b st2 : reads st a st1 -> reads st1 b st2 -> reads st (a ++ b) st2.
Proof. induction 1; intros; cbn; auto. econstructor; eauto. Qed.
Lemma reads_app_inv st a b st2 : reads st (a ++ b) st2 -> exists st1, reads st a st1 /\ reads st1 b st2.
Proof.
  revert st. induction a as [|x a IH]; cbn; intros st H.
  - exists st. split; [constructor|assumption].
  - inversion H; subst. destruct (IH _ H5) as (m & A & B). exists m. split; [econstructor; eauto|assumption].
Qed.
Lemma reads_one st t st1 : get_token st = POk (t, st1) -> reads st [t] st1.
Proof. intros; econstructor; eauto. constructor. Qed.

Lemma reads_unget st t st1 ts st2 : get_token st = POk (t, st1) -> ts <> [] ->
  reads (unget_token t st1) ts st2 -> reads st ts st2.
Proof.
  intros G NE R. inversion R; subst; [congruence|].
  pose proof (get_token_cleared ids idc _ _ _ G) as N. destruct st1 as [o s1]. cbn [fst] in N. subst o.
  cbn in H. inversion H; subst. econstructor; eauto.
Qed.

Lemma rvalue_nonempty ts v : rvalue ts v -> ts <> [].
Proof. destruct 1; discriminate. Qed.

Lemma number_reads st v st' : parse_json_number ids idc st = POk (v, st') ->
  exists t, get_token st = POk (t, st') /\ rsigned t v.
Proof.
  unfold parse_json_number. destruct (get_token st) as [[t st1]| | |]; cbn [pbind]; try discriminate.
  intros H. exists t.
  destruct t; try discriminate; try (inversion H; subst; split; [reflexivity|constructor]).
  destruct (str_eqb s (zs "Infinity")) eqn:E1.
  - apply str_eqb_eq in E1. inversion H; subst. split; [reflexivity|constructor].
  - destruct (str_eqb s (zs "NaN")) eqn:E2; [|discriminate]. apply str_eqb_eq in E2. inversion H; subst. split; [reflexivity|constructor].
Qed.

Lemma negate_rneg t v v' : rsigned t v -> negate v = POk v' -> rneg v v'.
Proof. intros R H. inversion R; subst; cbn in H; inversion H; subst; constructor. Qed.

Lemma rel_keep acc l : NoDup (map fst acc) -> NoDup (map fst (fold_left set_member l acc)).
Proof. revert acc. induction l; cbn; intros; auto. apply IHl. apply set_member_nodup. assumption. Qed.

Lemma parse_reads : forall f,
  (forall st v st', parse_value f st = POk (v, st') -> exists ts, reads st ts st' /\ rvalue ts v) /\
  (forall st acc l st', array_loop f st acc = POk (l, st') -> exists ts vs, reads st ts st' /\ relements ts vs /\ l = acc ++ vs) /\
  (forall st acc l st', NoDup (map fst acc) -> object_loop f st acc = POk (l, st') ->
     exists ts ms, reads st ts st' /\ rmembers ts ms /\ l = fold_left set_member ms acc).
Proof.
  induction f as [|f (IV & IA & IO)].
  { repeat split; intros; discriminate. }
  split; [|split].
  - intros st v st' H. rewrite parse_value_S in H.
    destruct (get_token st) as [[t st1]| | |] eqn:G; cbn [pbind] in H; try discriminate.
    destruct t; try discriminate.
    + destruct (object_loop f st1 []) as [[l st2]| | |] eqn:O; cbn [pbind] in H; try discriminate. inversion H; subst.
      destruct (IO st1 [] l st' ltac:(constructor) O) as (ts & ms & R & M & ->).
      exists (TLbrace :: ts). split; [econstructor; eauto|]. constructor. exact M.
    + destruct (array_loop f st1 []) as [[l st2]| | |] eqn:O; cbn [pbind] in H; try discriminate. inversion H; subst.
      destruct (IA st1 [] l st' O) as (ts & vs & R & M & ->).
      exists (TLbracket :: ts). split; [econstructor; eauto|]. constructor. exact M.
    + destruct (number_reads _ _ _ H) as (t & G2 & R). exists [TPlus; t].
      split; [econstructor; eauto; apply reads_one; assumption|]. constructor. exact R.
    + destruct (parse_json_number ids idc st1) as [[v1 st2]| | |] eqn:PN; cbn [pbind] in H; try discriminate.
      destruct (negate v1) as [v2| | |] eqn:NG; cbn [pbind] in H; try discriminate. inversion H; subst.
      destruct (number_reads _ _ _ PN) as (t & G2 & R). exists [TMinus; t].
      split; [econstructor; eauto; apply reads_one; assumption|]. econstructor; [exact R|]. apply (negate_rneg _ _ _ R NG).
    + inversion H; subst. exists [TString s]. split; [apply reads_one; assumption|constructor].
    + inversion H; subst. exists [TNumber base text]. split; [apply reads_one; assumption|constructor].
    + inversion H; subst. exists [TBigInt base text]. split; [apply reads_one; assumption|constructor].
    + exists [TIdentifier s].
      repeat match type of H with context [if ?b then _ else _] => destruct b eqn:? end; try discriminate;
        inversion H; subst; (split; [apply reads_one; assumption|]); constructor; unfold rname;
        match goal with E : str_eqb s (zs ?w) = true |- _ => apply str_eqb_eq in E; rewrite E end; tauto.
  - intros st acc l st' H. rewrite array_loop_S in H.
    destruct (get_token st) as [[t st1]| | |] eqn:G; cbn [pbind] in H; try discriminate.
    assert (T : t = TRbracket \/ t <> TRbracket) by (destruct t; auto; right; discriminate).
    destruct T as [->|NR].
    { inversion H; subst. exists [TRbracket], []. split; [apply reads_one; assumption|]. split; [constructor|]. rewrite app_nil_r. reflexivity. }
    assert (H' : pbind (parse_value f (unget_token t st1)) (fun pat => let '(v, st2) := pat in
        pbind (get_token st2) (fun pat0 => let '(t0, st0) := pat0 in
          match t0 with TRbracket => POk (acc ++ [v], st0) | TComma => array_loop f st0 (acc ++ [v]) | _ => PErr end)) = POk (l, st')).
    { destruct t; try exact H. congruence. }
    clear H. destruct (parse_value f (unget_token t st1)) as [[v st2]| | |] eqn:P; cbn [pbind] in H'; try discriminate.
    destruct (IV _ _ _ P) as (ts & R & V).
    apply (reads_unget _ _ _ _ _ G (rvalue_nonempty _ _ V)) in R.
    destruct (get_token st2) as [[t0 st0]| | |] eqn:G2; cbn [pbind] in H'; try discriminate.
    destruct t0; try discriminate.
    + inversion H'; subst. exists (ts ++ [TRbracket]), [v]. split; [eapply reads_app; eauto; apply reads_one; assumption|].
      split; [constructor; assumption|reflexivity].
    + destruct (IA _ _ _ _ H') as (ts2 & vs & R2 & E & ->).
      exists (ts ++ TComma :: ts2), (v :: vs). split; [eapply reads_app; eauto; econstructor; eauto|].
      split; [constructor; assumption|]. rewrite <- app_assoc. reflexivity.
  - intros st acc l st' ND H. rewrite object_loop_S in H.
    destruct (get_token st) as [[t st1]| | |] eqn:G; cbn [pbind] in H; try discriminate.
    assert (K : forall k, t = TString k \/ t = TIdentifier k ->
      pbind (get_token st1) (fun pat => let '(t0, st0) := pat in
        match t0 with
        | TColon => pbind (parse_value f st0) (fun pat0 => let '(v, st2) := pat0 in
            pbind (get_token st2) (fun pat1 => let '(t1, st3) := pat1 in
              match t1 with TRbrace => POk (put k v acc, st3) | TComma => object_loop f st3 (put k v acc) | _ => PErr end))
        | _ => PErr end) = POk (l, st') ->
      exists ts ms, reads st ts st' /\ rmembers ts ms /\ l = fold_left set_member ms acc).
    { intros k Tk H'. destruct (get_token st1) as [[t0 st0]| | |] eqn:G1; cbn [pbind] in H'; try discriminate.
      destruct t0; try discriminate.
      destruct (parse_value f st0) as [[v st2]| | |] eqn:P; cbn [pbind] in H'; try discriminate.
      destruct (IV _ _ _ P) as (ts & R & V).
      destruct (get_token st2) as [[t1 st3]| | |] eqn:G2; cbn [pbind] in H'; try discriminate.
      rewrite put_set in H' by assumption.
      destruct t1; try discriminate.
      - inversion H'; subst. exists (t :: TColon :: ts ++ [TRbrace]), [(k, v)]. split.
        + econstructor; [exact G|]. econstructor; [exact G1|]. eapply reads_app; [exact R|]. apply reads_one. exact G2.
        + split; [constructor; assumption|reflexivity].
      - destruct (IO _ _ _ _ (set_member_nodup _ (k, v) ND) H') as (ts2 & ms & R2 & M & ->).
        exists (t :: TColon :: ts ++ TComma :: ts2), ((k, v) :: ms). split.
        + econstructor; [exact G|]. econstructor; [exact G1|]. eapply reads_app; [exact R|]. econstructor; eauto.
        + split; [constructor; assumption|reflexivity]. }
    destruct t; try discriminate.
    + inversion H; subst. exists [TRbrace], []. split; [apply reads_one; assumption|]. split; [constructor|reflexivity].
    + apply (K s); auto.
    + apply (K s); auto.
Qed.

Lemma reads_inv st t ts st2 : reads st (t :: ts) st2 -> exists st1, get_token st = POk (t, st1) /\ reads st1 ts st2.
Proof. intros R; inversion R; subst; eauto. Qed.
Lemma reads_nil_inv st st2 : reads st [] st2 -> st = st2.
Proof. intros R; inversion R; reflexivity. Qed.
Ltac rd :=
  repeat match goal with
  | H : reads _ (_ :: _) _ |- _ => let m := fresh "m" in let G := fresh "G" in let R := fresh "R" in apply reads_inv in H; destruct H as (m & G & R)
  | H : reads _ (_ ++ _) _ |- _ => let m := fresh "m" in let R1 := fresh "R" in let R2 := fresh "R" in apply reads_app_inv in H; destruct H as (m & R1 & R2)
  | H : reads _ [] _ |- _ => apply reads_nil_inv in H; subst
  end.

(** the converse, with enough fuel *)
Scheme rvalue_mind := Induction for rvalue Sort Prop
  with relements_mind := Induction for relements Sort Prop
  with rmembers_mind := Induction for rmembers Sort Prop.
Combined Scheme r_mind from rvalue_mind, relements_mind, rmembers_mind.

Lemma number_parses st t st' v : get_token st = POk (t, st') -> rsigned t v -> parse_json_number ids idc st = POk (v, st').
Proof.
  intros G R. unfold parse_json_number. rewrite G. inversion R; subst; reflexivity.
Qed.

Lemma reads_parse :
  (forall ts v, rvalue ts v -> forall f st st', (List.length ts <= f)%nat -> reads st ts st' -> parse_value f st = POk (v, st')) /\
  (forall ts vs, relements ts vs -> forall f st st' acc, (List.length ts <= f)%nat -> reads st ts st' -> array_loop f st acc = POk (acc ++ vs, st')) /\
  (forall ts ms, rmembers ts ms -> forall f st st' acc, (List.length ts <= f)%nat -> NoDup (map fst acc) -> reads st ts st' ->
     object_loop f st acc = POk (fold_left set_member ms acc, st')).
Proof.
  apply (r_mind
    (fun ts v _ => forall f st st', (List.length ts <= f)%nat -> reads st ts st' -> parse_value f st = POk (v, st'))
    (fun ts vs _ => forall f st st' acc, (List.length ts <= f)%nat -> reads st ts st' -> array_loop f st acc = POk (acc ++ vs, st'))
    (fun ts ms _ => forall f st st' acc, (List.length ts <= f)%nat -> NoDup (map fst acc) -> reads st ts st' ->
       object_loop f st acc = POk (fold_left set_member ms acc, st'))).
  - intros n v Rn f st st' F R. destruct f; [cbn in F; lia|]. rewrite parse_value_S. rd. rewrite G. cbn [pbind].
    unfold rname in Rn. decompose [or and] Rn; subst; reflexivity.
  - intros s f st st' F R. destruct f; [cbn in F; lia|]. rewrite parse_value_S. rd. rewrite G. reflexivity.
  - intros b x f st st' F R. destruct f; [cbn in F; lia|]. rewrite parse_value_S. rd. rewrite G. reflexivity.
  - intros b x f st st' F R. destruct f; [cbn in F; lia|]. rewrite parse_value_S. rd. rewrite G. reflexivity.
  - intros t v Sg f st st' F R. destruct f; [cbn in F; lia|]. rewrite parse_value_S. rd. rewrite G. cbn [pbind].
    eapply number_parses; eauto.
  - intros t v v' Sg N f st st' F R. destruct f; [cbn in F; lia|]. rewrite parse_value_S. rd. rewrite G. cbn [pbind].
    rewrite (number_parses _ _ _ _ G0 Sg). cbn [pbind]. inversion N; subst; reflexivity.
  - intros t l E IH f st st' F R. destruct f; [cbn in F; lia|]. cbn [List.length] in F. rewrite parse_value_S. apply reads_inv in R. destruct R as (m & G & R). rewrite G. cbn [pbind].
    rewrite (IH f m st' []) by (auto; lia). reflexivity.
  - intros t l E IH f st st' F R. destruct f; [cbn in F; lia|]. cbn [List.length] in F. rewrite parse_value_S. apply reads_inv in R. destruct R as (m & G & R). rewrite G. cbn [pbind].
    rewrite (IH f m st' []) by (auto; try lia; constructor). reflexivity.
  - intros f st st' acc F R. destruct f; [cbn in F; lia|]. rewrite array_loop_S. rd. rewrite G. rewrite app_nil_r. reflexivity.
  - intros t v V IH f st st' acc F R. rewrite app_length in F. cbn [List.length] in F.
    destruct f; [lia|]. rewrite array_loop_S. rd.
    assert (P : parse_value f st = POk (v, m)) by (apply IH; [lia|assumption]).
    destruct (parse_first _ _ _ _ _ P) as (tk & st1 & Gt & N & NR). rewrite Gt. cbn [pbind].
    pose proof (parse_unget ids idc f _ _ _ Gt N) as U. rewrite P in U.
    destruct tk; try congruence; rewrite U; cbn [pbind]; rewrite G; reflexivity.
  - intros t v t' l V IH E IHe f st st' acc F R. rewrite app_length in F. cbn [List.length] in F.
    destruct f; [lia|]. rewrite array_loop_S. rd.
    assert (P : parse_value f st = POk (v, m)) by (apply IH; [lia|assumption]).
    destruct (parse_first _ _ _ _ _ P) as (tk & st2 & Gt & N & NR). rewrite Gt. cbn [pbind].
    pose proof (parse_unget ids idc f _ _ _ Gt N) as U. rewrite P in U.
    assert (Q : array_loop f m0 (acc ++ [v]) = POk (acc ++ v :: l, st')).
    { rewrite (IHe f m0 st') by (auto; lia). rewrite <- app_assoc. reflexivity. }
    destruct tk; try congruence; rewrite U; cbn [pbind]; rewrite G; cbn [pbind]; exact Q.
  - intros f st st' acc F ND R. destruct f; [cbn in F; lia|]. rewrite object_loop_S. rd. rewrite G. reflexivity.
  - intros k n t v Hk V IH f st st' acc F ND R. cbn [List.length] in F. rewrite app_length in F. cbn [List.length] in F.
    destruct f; [lia|]. rewrite object_loop_S. rd. rewrite G.
    destruct Hk as [-> | ->]; cbn [pbind]; rewrite G0; cbn [pbind]; rewrite (IH f m0 m1) by (auto; lia); cbn [pbind]; rewrite G1;
      cbn [pbind fold_left]; rewrite put_set by assumption; reflexivity.
  - intros k n t v t' l Hk V IH M IHm f st st' acc F ND R. cbn [List.length] in F. rewrite app_length in F. cbn [List.length] in F.
    destruct f; [lia|]. rewrite object_loop_S. rd. rewrite G.
    destruct Hk as [-> | ->]; cbn [pbind]; rewrite G0; cbn [pbind]; rewrite (IH f m0 m1) by (auto; lia); cbn [pbind]; rewrite G1;
      cbn [pbind fold_left]; rewrite put_set by assumption; apply IHm; auto; try lia; apply set_member_nodup; assumption.
Qed.

(** [tokens s ts]: the lexer splits the whole text into [ts] *)
Inductive tokens : str -> list token -> Prop :=
| T_end s r : lex_token ids idc (S (len s)) s = LOk (TEnd, false, r) -> tokens s []
| T_tok s t r ts : lex_token ids idc (S (len s)) s = LOk (t, false, r) -> t <> TEnd -> tokens r ts -> tokens s (t :: ts).

Lemma get_lex s t r : get_token (None, s) = POk (t, (None, r)) <-> lex_token ids idc (S (len s)) s = LOk (t, false, r).
Proof.
  unfold JsonModel.get_token. destruct (lex_token ids idc (S (len s)) s) as [[[x e] r']| |]; split; intros H; try discriminate.
  - destruct e; inversion H; reflexivity.
  - inversion H; subst. reflexivity.
Qed.

Lemma tokens_reads s ts : tokens s ts -> exists r r', reads (None, s) ts (None, r) /\ get_token (None, r) = POk (TEnd, (None, r')) /\ (List.length ts <= len s)%nat.
Proof.
  induction 1 as [s r H|s t r ts H NE T IH].
  - exists s, r. split; [constructor|]. split; [apply get_lex; assumption|cbn; lia].
  - destruct IH as (r1 & r' & R & G & L). exists r1, r'. split.
    + econstructor; [apply get_lex; exact H|exact R].
    + split; [exact G|]. pose proof (lex_token_fine s) as Q. rewrite H in Q. destruct Q as [_ Q]. specialize (Q eq_refl NE). cbn. lia.
Qed.

Lemma reads_tokens : forall ts s r r', reads (None, s) ts (None, r) -> ~ In TEnd ts -> get_token (None, r) = POk (TEnd, (None, r')) -> tokens s ts.
Proof.
  induction ts as [|t ts IH]; intros s r r' R NI G.
  - inversion R; subst. econstructor. apply get_lex. exact G.
  - inversion R; subst. pose proof (get_token_cleared ids idc _ _ _ H2) as N. destruct st1 as [o s1]. cbn [fst] in N. subst o.
    econstructor; [apply get_lex; exact H2| |]; [intros ->; apply NI; left; reflexivity|].
    eapply IH; eauto. intros I2. apply NI. right. exact I2.
Qed.

Lemma no_end :
  (forall ts v, rvalue ts v -> ~ In TEnd ts) /\ (forall ts vs, relements ts vs -> ~ In TEnd ts) /\ (forall ts ms, rmembers ts ms -> ~ In TEnd ts).
Proof.
  apply (r_mind (fun ts v _ => ~ In TEnd ts) (fun ts v _ => ~ In TEnd ts) (fun ts v _ => ~ In TEnd ts));
    intros; intros X; cbn in X; rewrite ?in_app_iff in X; cbn in X;
    repeat match goal with H : rsigned _ _ |- _ => inversion H; subst; clear H | H : _ = TString _ \/ _ |- _ => destruct H; subst end;
    intuition (try discriminate; auto).
Qed.

Lemma parse_exact t v : json_parse ids idc t = POk v <-> exists ts, tokens t ts /\ rvalue ts v.
Proof.
  split.
  - unfold json_parse. intros H.
    destruct (parse_value (2 * len t + 2) (None, t)) as [[v' st]| | |] eqn:P; cbn [pbind] in H; try discriminate.
    destruct (parse_ends (2 * len t + 2)) as (E & _). specialize (E (None, t)). rewrite P in E.
    unfold size in E at 1. cbn [fst snd ended] in E. destruct E as [N _]; [lia|].
    destruct (get_token st) as [[tk st']| | |] eqn:G; cbn [pbind] in H; try discriminate.
    destruct tk; try discriminate. inversion H; subst.
    destruct (parse_reads (2 * len t + 2)) as (R & _). destruct (R _ _ _ P) as (ts & Rd & V).
    pose proof (get_token_cleared ids idc _ _ _ G) as N'. destruct st as [o s], st' as [o' s']. cbn [fst] in N, N'. subst.
    exists ts. split; [|exact V]. eapply reads_tokens; eauto. apply (proj1 no_end _ _ V).
  - intros (ts & T & V). destruct (tokens_reads _ _ T) as (r & r' & R & G & L).
    destruct reads_parse as (P & _). unfold json_parse.
    rewrite (P ts v V (2 * len t + 2)%nat _ _ ltac:(lia) R). cbn [pbind]. rewrite G. reflexivity.
Qed.

End Classes.
