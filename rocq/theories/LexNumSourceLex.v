(** * Numeric literals of programs: lex_number *)
Require Import ZArith List Bool Lia QArith.
From Verif Require Import DtoaModel DtoaSpec LexNumModel LexNumSpec LexNumRound LexNumScan LexNumString LexNumConvert
  LexNumBig LexNumSourceSpec LexNumSource.
From Verif Require StrModel StrSpec BigModel BigSpec.
Import ListNotations.
Local Open Scope Z_scope.

Lemma number_zero : forall r w, number_of r (48 :: w) = number_of r w.
Proof.
  intros r w. unfold number_of, DtoaSpec.value. cbn [map fold_left].
  change (digit_of 48) with 0. rewrite ?Z.mul_0_l, ?Z.add_0_r. reflexivity.
Qed.

Section Source.
Variables (id_start id_continue : Z -> bool).
Hypothesis W : words id_start id_continue.
Variable st : bool.
Let md := Mode false false st.

Definition good (r : list Z) : Prop := begins is_digit r = false /\ begins id_start r = false.

Lemma start_char : forall c, letter c || (c =? 36) || (c =? 95) = true -> 0 <= c < 128 -> id_start c = true.
Proof. intros c H R. rewrite (start_ascii _ _ W) by exact R. exact H. Qed.

Lemma good_facts : forall r, good r ->
  (forall b, base_ok b -> begins (ok_digit b) r = false) /\ begins (Z.eqb 95) r = false /\ begins exp_head r = false /\
  begins (Z.eqb 110) r = false /\
  (forall c t, r = c :: t -> c <> 98 /\ c <> 66 /\ c <> 111 /\ c <> 79 /\ c <> 120 /\ c <> 88 /\ is_digit c = false /\ c <> 95).
Proof.
  intros r [D I]. destruct r as [|c t]; [repeat split; discriminate|]. cbn [begins] in *.
  assert (N : forall d, c = d -> letter d || (d =? 36) || (d =? 95) = true -> 0 <= d < 128 -> False).
  { intros d -> L R. rewrite (start_char d L R) in I. discriminate. }
  split; [|split; [|split; [|split]]].
  - intros b B. destruct (ok_digit b c) eqn:O; [|reflexivity]. exfalso.
    unfold ok_digit in O. unfold LexNumModel.is_digit in D.
    assert (HX : is_xdigit c = true).
    { unfold is_xdigit. unfold is_octal, LexNumModel.is_digit, is_xdigit in O.
      destruct (b =? 2); [lia|]. destruct (b =? 8); [lia|]. destruct (b =? 10); lia. }
    unfold is_xdigit in HX. apply (N c eq_refl); [unfold letter; lia|lia].
  - destruct (Z.eqb_spec 95 c) as [E|]; [|reflexivity]. exfalso. apply (N 95); [auto|reflexivity|lia].
  - unfold exp_head. destruct (Z.eqb_spec c 101) as [E|]; [exfalso; apply (N 101); [auto|reflexivity|lia]|].
    destruct (Z.eqb_spec c 69) as [E|]; [exfalso; apply (N 69); [auto|reflexivity|lia]|]. reflexivity.
  - destruct (Z.eqb_spec 110 c) as [E|]; [|reflexivity]. exfalso. apply (N 110); [auto|reflexivity|lia].
  - intros c' t' Q. injection Q as <- <-. repeat split; try assumption; intros E; eapply N; try exact E; try reflexivity; lia.
Qed.

Lemma good_stop : forall r, good r -> stop_at 10 r.
Proof. intros r G. destruct (good_facts r G) as (A & B & _). split; [apply A; unfold base_ok; auto|exact B]. Qed.

(** *** int_end *)
Definition ten_result (i s r : list Z) (lg : bool) (v : value) : Prop :=
  (s = 110 :: r /\ lg = false /\ i <> [] /\ v = VBig (big_of 10 i)) \/
  (exists x e, source_exp x e /\ i <> [] /\ s = x ++ r /\ (x = [] -> begins (Z.eqb 46) r = false) /\
     (len (i ++ x) <= 19000 -> v = VNum (dec_double false (number_of 10 i) e))) \/
  (exists f fw x e, source_exp x e /\ source_frac f fw /\ i ++ fw <> [] /\ s = 46 :: f ++ x ++ r /\
     (len (i ++ 46 :: f ++ x) <= 19000 -> v = VNum (dec_double false (number_of 10 (i ++ fw)) (e - len fw)))).

Lemma frac_len : forall u w, source_frac u w -> len w <= len u /\ digits 10 w.
Proof.
  intros u w [[-> ->]|H]; [split; [reflexivity|constructor]|]. split; [eapply separated_len; eassumption|].
  apply separated_digits in H. apply H.
Qed.

Lemma end_ten_sound : forall ns lg i s dec v r, digits 10 i -> begins is_digit s = false ->
  (i = [] -> exists c t, s = 46 :: c :: t /\ is_digit c = true) ->
  int_end id_start md ns lg 10 i s = Some (dec, v, r) ->
  good r /\ (ns = true -> st = false) /\ ten_result i s r lg v.
Proof.
  intros ns lg i s dec v r DI BS NI E. unfold int_end in E. cbn [Z.eqb Pos.eqb andb big_flag md negb] in E.
  destruct (fraction_part ns s) as [[[w1 f1] s1]|] eqn:FP; [|discriminate].
  destruct (exponent_part ns s1) as [[[w2 f2] s2]|] eqn:EP; [|discriminate].
  destruct (match s2 with
            | [] => (false, s2)
            | c :: r0 => if (c =? 110) && true && negb lg && negb (f1 || f2) then (true, r0) else (false, s2)
            end) as [big s3] eqn:SB.
  destruct (begins is_digit s3 || begins id_start s3) eqn:FO; [discriminate|]. apply orb_false_elim in FO.
  change (strict md) with st in E. destruct (ns && st) eqn:NS; [discriminate|].
  assert (NS' : ns = true -> st = false) by (intros ->; exact NS).
  rewrite orb_false_r in E.
  assert (R : s3 = r) by (injection E as _ _ R; exact R). subst s3.
  assert (V : v = (if big then VBig (BigModel.from_digits (map hex_value (i ++ w1 ++ w2)) 10)
                   else if f1 || f2 then VNum (fst (strtod (i ++ w1 ++ w2))) else VNum (fst (strtoi (i ++ w1 ++ w2) 10))))
    by (injection E as _ V; symmetry; exact V).
  clear E. split; [exact FO|]. split; [exact NS'|].
  assert (DEC : forall D X, decimal_of (i ++ w1 ++ w2) D X -> len (i ++ w1 ++ w2) <= 19000 ->
    (if f1 || f2 then VNum (fst (strtod (i ++ w1 ++ w2))) else VNum (fst (strtoi (i ++ w1 ++ w2) 10))) = VNum (dec_double false D X)).
  { intros D X HD L. rewrite <- (app_nil_r (i ++ w1 ++ w2)).
    destruct (f1 || f2).
    - rewrite (strtod_decimal _ _ _ [] HD eq_refl L). reflexivity.
    - rewrite (strtoi_ten _ _ _ [] HD eq_refl L). reflexivity. }
  destruct big.
  - (* a BigInt *)
    destruct s2 as [|c r0]; [discriminate|].
    destruct ((c =? 110) && true && negb lg && negb (f1 || f2)) eqn:Q; [|discriminate]. injection SB as ->.
    apply andb_prop in Q. destruct Q as [Q F]. apply andb_prop in Q. destruct Q as [Q LG]. rewrite andb_true_r in Q.
    apply Z.eqb_eq in Q. subst c. apply negb_true_iff in F. apply orb_false_elim in F. destruct F as [-> ->].
    apply negb_true_iff in LG.
    destruct (frac_sound _ _ _ _ _ FP) as [(_ & -> & -> & _)|(? & _)]; [|discriminate].
    destruct (exp_part_sound _ _ _ _ _ EP) as [(_ & -> & <- & _)|(? & _)]; [|discriminate].
    left. split; [reflexivity|]. split; [exact LG|]. cbn [app] in V. rewrite ?app_nil_r in V. split; [|exact V].
    intros ->. destruct (NI eq_refl) as (? & ? & ? & _). discriminate.
  - assert (s2 = r).
    { destruct s2 as [|c r0]; [injection SB as <-; reflexivity|].
      destruct ((c =? 110) && true && negb lg && negb (f1 || f2)); [discriminate|injection SB as <-; reflexivity]. }
    subst s2. right.
    assert (EX : exists x e, source_exp x e /\ s1 = x ++ r /\ exponent_of w2 e /\ len w2 <= len x /\ (x = [] -> r = s1)).
    { destruct (exp_part_sound _ _ _ _ _ EP) as [(_ & -> & -> & _)|(_ & u & e & -> & SE & EO & NW & L & _)].
      - exists [], 0. repeat split; [constructor|constructor|unfold len; cbn; lia].
      - exists u, e. repeat split; try assumption. intros ->. reflexivity. }
    destruct EX as (x & e & SE & -> & EO & LX & XE).
    destruct (frac_sound _ _ _ _ _ FP) as [(-> & -> & <- & B)|(-> & f & fw & -> & -> & SF & B)].
    + left. exists x, e. split; [exact SE|].
      assert (NI' : i <> []).
      { intros ->. destruct (NI eq_refl) as (c & t & Q & _). rewrite Q in B. discriminate. }
      split; [exact NI'|]. split; [reflexivity|]. split.
      * intros ->. exact B.
      * intros L. rewrite V. apply DEC.
        -- apply dec_whole; assumption.
        -- unfold len in *. rewrite app_length in *. rewrite app_length. cbn [length]. lia.
    + right. exists f, fw, x, e. destruct (frac_len _ _ SF) as [LF DF].
      assert (NF : i ++ fw <> []).
      { intros Q. apply app_eq_nil in Q. destruct Q as [-> ->]. destruct (NI eq_refl) as (c & t & Q & C).
        injection Q as Q. destruct SF as [[-> _]|SF]; [|apply separated_digits in SF; destruct SF; contradiction].
        cbn [app] in Q. rewrite Q in B. cbn [begins] in B. congruence. }
      split; [exact SE|]. split; [exact SF|]. split; [exact NF|]. split; [reflexivity|].
      intros L. rewrite V. apply DEC.
      * apply (dec_point i fw w2 e); assumption.
      * unfold len in *. rewrite !app_length in *. cbn [length] in *. rewrite !app_length in *. lia.
Qed.

(** A base other than ten *)
Lemma end_other_sound : forall ns lg b i s dec v r, b <> 10 ->
  int_end id_start md ns lg b i s = Some (dec, v, r) ->
  good r /\ (ns = true -> st = false) /\
  ((s = r /\ v = VNum (fst (strtoi i b))) \/ (s = 110 :: r /\ lg = false /\ v = VBig (big_of b i))).
Proof.
  intros ns lg b i s dec v r NB E. unfold int_end in E.
  replace (b =? 10) with false in E by (symmetry; apply Z.eqb_neq; exact NB). cbn [andb] in E.
  change (big_flag md) with false in E. cbn [negb] in E.
  destruct (match s with
            | [] => (false, s)
            | c :: r0 => if (c =? 110) && true && negb lg && true then (true, r0) else (false, s)
            end) as [big s3] eqn:SB.
  destruct (begins is_digit s3 || begins id_start s3) eqn:FO; [discriminate|]. apply orb_false_elim in FO.
  change (strict md) with st in E. destruct (ns && st) eqn:NS; [discriminate|].
  rewrite orb_false_r in E.
  assert (R : s3 = r) by (injection E as _ _ R; exact R). subst s3.
  split; [exact FO|]. split; [intros ->; exact NS|].
  destruct big.
  - right. destruct s as [|c r0]; [discriminate|].
    destruct ((c =? 110) && true && negb lg && true) eqn:Q; [|discriminate]. injection SB as ->.
    apply andb_prop in Q. destruct Q as [Q _]. apply andb_prop in Q. destruct Q as [Q LG]. rewrite andb_true_r in Q.
    apply Z.eqb_eq in Q. subst c. apply negb_true_iff in LG. injection E as _ <-. auto.
  - left. split.
    + destruct s as [|c r0]; [injection SB as <-; reflexivity|].
      destruct ((c =? 110) && true && negb lg && true); [discriminate|injection SB as <-; reflexivity].
    + injection E as _ <-. reflexivity.
Qed.

Lemma no_big : forall (r : list Z) (a b : bool), begins (Z.eqb 110) r = false ->
  (match r with
   | [] => (false, r)
   | c :: r0 => if (c =? 110) && true && a && b then (true, r0) else (false, r)
   end) = (false, r).
Proof using.
  intros [|c r] a b H; [reflexivity|]. cbn [begins] in H. rewrite Z.eqb_sym in H. rewrite H. reflexivity.
Qed.

Lemma end_ten_whole : forall ns lg i x e r, digits 10 i -> i <> [] -> source_exp x e -> good r -> ns && st = false ->
  (ns = true -> ~ In 95 x) -> (x = [] -> begins (Z.eqb 46) r = false) ->
  exists v, int_end id_start md ns lg 10 i (x ++ r) = Some (true, v, r) /\
    (len (i ++ x) <= 19000 -> v = VNum (dec_double false (number_of 10 i) e)).
Proof.
  intros ns lg i x e r DI NI SE G NS N95 ND. pose proof (good_stop r G) as ST.
  destruct (good_facts r G) as (_ & _ & NE & N110 & _). destruct G as [G1 G2].
  destruct (exp_part_complete ns x e r SE ST N95 (fun _ => NE)) as (w & EP & EO & L).
  assert (FP : fraction_part ns (x ++ r) = Some ([], false, x ++ r)).
  { destruct x as [|c x].
    - specialize (ND eq_refl). cbn [app]. destruct r as [|c r]; [reflexivity|]. cbn [begins] in ND.
      cbn [fraction_part]. rewrite Z.eqb_sym in ND. rewrite ND. reflexivity.
    - inversion SE; subst. cbn [app fraction_part]. replace (c =? 46) with false by lia. reflexivity. }
  exists (if match x with [] => false | _ => true end then VNum (fst (strtod (i ++ w))) else VNum (fst (strtoi (i ++ w) 10))).
  split.
  - unfold int_end. cbn [Z.eqb Pos.eqb andb big_flag md negb]. rewrite FP, EP. cbn [app orb].
    rewrite no_big by exact N110. rewrite G1, G2. change (strict md) with st. rewrite NS. reflexivity.
  - intros LE. assert (HD : decimal_of (i ++ w) (number_of 10 i) e) by (apply dec_whole; assumption).
    assert (LW : len (i ++ w) <= 19000) by (unfold len in *; rewrite !app_length in *; lia).
    rewrite <- (app_nil_r (i ++ w)). destruct x.
    + rewrite (strtoi_ten _ _ _ [] HD eq_refl LW). reflexivity.
    + rewrite (strtod_decimal _ _ _ [] HD eq_refl LW). reflexivity.
Qed.

Lemma end_ten_point : forall ns lg i f fw x e r, digits 10 i -> i ++ fw <> [] -> source_exp x e -> source_frac f fw ->
  good r -> ns && st = false -> (ns = true -> ~ In 95 (f ++ x)) ->
  exists v, int_end id_start md ns lg 10 i (46 :: f ++ x ++ r) = Some (true, v, r) /\
    (len (i ++ 46 :: f ++ x) <= 19000 -> v = VNum (dec_double false (number_of 10 (i ++ fw)) (e - len fw))).
Proof.
  intros ns lg i f fw x e r DI NI SE SF G NS N95. pose proof (good_stop r G) as ST.
  destruct (good_facts r G) as (_ & _ & NE & N110 & _). destruct G as [G1 G2].
  destruct (exp_part_complete ns x e r SE ST) as (w & EP & EO & L).
  { intros Q I. apply (N95 Q). apply in_or_app. auto. }
  { intros _. exact NE. }
  assert (FP : fraction_part ns (46 :: f ++ x ++ r) = Some (46 :: fw, true, x ++ r)).
  { apply frac_complete; [exact SF| |].
    - destruct x as [|c x]; [exact ST|]. inversion SE as [|? ? ? ? ? HC]; subst.
      destruct HC as [-> | ->]; split; reflexivity.
    - intros Q I. apply (N95 Q). apply in_or_app. auto. }
  exists (VNum (fst (strtod (i ++ (46 :: fw) ++ w)))). split.
  - unfold int_end. cbn [Z.eqb Pos.eqb andb big_flag md negb]. rewrite FP, EP. cbn [orb negb].
    rewrite no_big by exact N110. rewrite G1, G2. change (strict md) with st. rewrite NS. reflexivity.
  - intros LE. destruct (frac_len _ _ SF) as [LF DF].
    assert (HD : decimal_of (i ++ (46 :: fw) ++ w) (number_of 10 (i ++ fw)) (e - len fw)) by (apply (dec_point i fw w e); assumption).
    assert (LW : len (i ++ (46 :: fw) ++ w) <= 19000).
    { unfold len in *. rewrite !app_length in *. cbn [length] in *. rewrite !app_length in *. lia. }
    rewrite <- (app_nil_r (i ++ (46 :: fw) ++ w)). rewrite (strtod_decimal _ _ _ [] HD eq_refl LW). reflexivity.
Qed.

Lemma end_big : forall ns b i r, good r -> ns && st = false ->
  int_end id_start md ns false b i (110 :: r) = Some (b =? 10, VBig (big_of b i), r).
Proof.
  intros ns b i r [G1 G2] NS. unfold int_end. cbn [big_flag md negb]. rewrite andb_true_r.
  assert (E : (if b =? 10 then
     match fraction_part ns (110 :: r) with
     | Some (w1, f1, s1) => match exponent_part ns s1 with
         | Some (w2, f2, s2) => Some (i ++ w1 ++ w2, f1 || f2, s2) | None => None end
     | None => None end
   else Some (i, false, 110 :: r)) = Some (i, false, 110 :: r)).
  { destruct (b =? 10); [|reflexivity]. cbn. rewrite app_nil_r. reflexivity. }
  rewrite E. cbn [Z.eqb Pos.eqb andb negb]. rewrite G1, G2. change (strict md) with st. rewrite NS. reflexivity.
Qed.

Lemma end_other : forall ns lg b i r, b <> 10 -> good r -> ns && st = false ->
  int_end id_start md ns lg b i r = Some (false, VNum (fst (strtoi i b)), r).
Proof.
  intros ns lg b i r NB G NS. destruct (good_facts r G) as (_ & _ & _ & N110 & _). destruct G as [G1 G2].
  unfold int_end. replace (b =? 10) with false by (symmetry; apply Z.eqb_neq; exact NB). cbn [andb big_flag md negb].
  rewrite no_big by exact N110. rewrite G1, G2. change (strict md) with st. rewrite NS. reflexivity.
Qed.

(** *** The ways through lex_number *)
Lemma way_dot : forall t, lex_number id_start md (46 :: t) = int_end id_start md false false 10 [] (46 :: t).
Proof. reflexivity. Qed.

Lemma way_plain : forall c t, c <> 46 -> c <> 48 ->
  lex_number id_start md (c :: t) = number_from id_start md false false 10 (c :: t).
Proof.
  intros c t A B. unfold lex_number. replace (c =? 46) with false by lia. replace (c =? 48) with false by lia. reflexivity.
Qed.

Lemma way_zero : forall t, (forall c u, t = c :: u -> c <> 98 /\ c <> 66 /\ c <> 111 /\ c <> 79 /\ c <> 120 /\ c <> 88 /\ is_digit c = false /\ c <> 95) ->
  lex_number id_start md (48 :: t) = number_from id_start md false false 10 (48 :: t).
Proof.
  intros [|c t] H; [reflexivity|]. destruct (H c t eq_refl) as (A & B & C & D & E & F & G & I).
  unfold lex_number. cbn [Z.eqb Pos.eqb].
  replace ((c =? 98) || (c =? 66)) with false by lia. replace ((c =? 111) || (c =? 79)) with false by lia.
  replace ((c =? 120) || (c =? 88)) with false by lia. cbn [from_string md negb andb].
  replace (is_octal c) with false by (unfold is_octal; unfold LexNumModel.is_digit in G; lia).
  replace (c =? 95) with false by lia.
  replace ((c =? 56) || (c =? 57)) with false by (unfold LexNumModel.is_digit in G; lia). reflexivity.
Qed.

Lemma way_radix : forall p b t, radix_prefix p b ->
  lex_number id_start md (p ++ t) = number_from id_start md false false b t.
Proof. intros p b t [[-> [-> | ->]]|[[-> [-> | ->]]|[-> [-> | ->]]]]; reflexivity. Qed.

Lemma way_octal : forall w t, digits 8 w -> w <> [] -> begins is_digit t = false ->
  begins (fun c => (c =? 46) || exp_head c) t = false ->
  lex_number id_start md (48 :: w ++ t) = int_end id_start md true true 8 w t.
Proof.
  intros w t D N T B. destruct (legacy_loop true w t false false) as [L _]; auto.
  { eapply Forall_impl; [|exact D]. unfold digit_in. intros; lia. }
  specialize (L D B). destruct w as [|c w]; [contradiction|].
  inversion D as [|? ? Hc _]; subst. apply (digit_base 8) in Hc; [|auto]. change (is_octal c = true) in Hc.
  assert (R : 48 <= c <= 55) by (unfold is_octal in Hc; lia).
  unfold lex_number. cbn [Z.eqb Pos.eqb app].
  replace ((c =? 98) || (c =? 66)) with false by lia. replace ((c =? 111) || (c =? 79)) with false by lia.
  replace ((c =? 120) || (c =? 88)) with false by lia. cbn [from_string md negb andb]. rewrite Hc.
  unfold number_from. cbn [app] in L. rewrite L. reflexivity.
Qed.

Lemma way_nonoctal : forall w t, digits 10 w -> ~ digits 8 w -> begins is_digit t = false ->
  exists i, (i = w \/ i = 48 :: w) /\ lex_number id_start md (48 :: w ++ t) = int_end id_start md true true 10 i t.
Proof.
  intros w t D N T. destruct w as [|c w]; [exfalso; apply N; constructor|].
  assert (HC : is_digit c = true) by (inversion D; apply digit_ten; assumption).
  assert (R : 48 <= c <= 57) by (unfold LexNumModel.is_digit in HC; lia).
  assert (Q : lex_number id_start md (48 :: (c :: w) ++ t) =
    if is_octal c then number_from id_start md true true 8 ((c :: w) ++ t)
    else number_from id_start md true true 10 (48 :: (c :: w) ++ t)).
  { unfold lex_number. cbn [Z.eqb Pos.eqb app].
    replace ((c =? 98) || (c =? 66)) with false by lia. replace ((c =? 111) || (c =? 79)) with false by lia.
    replace ((c =? 120) || (c =? 88)) with false by lia. cbn [from_string md negb andb].
    destruct (is_octal c) eqn:O; [reflexivity|]. replace (c =? 95) with false by lia.
    replace ((c =? 56) || (c =? 57)) with true by (unfold is_octal in O; lia). reflexivity. }
  destruct (is_octal c).
  - exists (c :: w). split; [auto|]. rewrite Q. unfold number_from.
    destruct (legacy_loop true (c :: w) t false false) as [_ L]; auto; [right; discriminate|].
    rewrite (L N). reflexivity.
  - exists (48 :: c :: w). split; [auto|]. rewrite Q. unfold number_from.
    rewrite (int_loop_span true 10 eq_refl). change (48 :: (c :: w) ++ t) with ((48 :: c :: w) ++ t).
    rewrite (span_app (ok_digit 10) (48 :: c :: w) t).
    + reflexivity.
    + apply digits_span; [lia|]. constructor; [vm_compute; reflexivity|exact D].
    + exact T.
Qed.
End Source.
