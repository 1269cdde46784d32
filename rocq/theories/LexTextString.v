(** * Proofs about escapes and string literals *)
Require Import ZArith List Bool Lia.
From Verif Require Import LexTextModel LexTextSpec.
Import ListNotations.
Local Open Scope Z_scope.

Lemma lor_add : forall k x y, 0 <= k -> 0 <= y < 2 ^ k -> Z.lor (Z.shiftl x k) y = x * 2 ^ k + y.
Proof.
  intros k x y Hk H. rewrite <- Z.lxor_lor, <- Z.add_nocarry_lxor; [rewrite Z.shiftl_mul_pow2 by lia; reflexivity| |];
    apply Z.bits_inj'; intros i Hi; rewrite Z.land_spec, Z.bits_0, Z.shiftl_spec by lia;
    (destruct (Z.ltb_spec i k);
     [rewrite (Z.testbit_neg_r x (i - k)) by lia; reflexivity
     | rewrite <- (Z.mod_small y (2 ^ k)) by lia; rewrite Z.mod_pow2_bits_high by lia; apply andb_false_r]).
Qed.

Lemma units_encode c : units c = encode c.
Proof.
  unfold units, encode.
  destruct (Z.ltb_spec 0xffff c), (Z.leb_spec c 0xffff); try lia; [|reflexivity].
  rewrite Z.shiftr_div_pow2 by lia. change 0x3ff with (Z.ones 10).
  rewrite Z.land_ones by lia. reflexivity.
Qed.

Lemma units_small c : c <= 0xffff -> units c = [c].
Proof. intro H. unfold units. destruct (Z.ltb_spec 0xffff c); [lia|reflexivity]. Qed.

(** Character classes *)
Ltac bdestr :=
  repeat match goal with
  | H : (_ && _) = true |- _ => apply andb_true_iff in H; destruct H
  | H : (_ || _) = false |- _ => apply orb_false_iff in H; destruct H
  | H : negb _ = true |- _ => apply negb_true_iff in H
  | H : negb _ = false |- _ => apply negb_false_iff in H
  | H : (_ <=? _) = true |- _ => apply Z.leb_le in H
  | H : (_ <=? _) = false |- _ => apply Z.leb_gt in H
  | H : (_ <? _) = true |- _ => apply Z.ltb_lt in H
  | H : (_ <? _) = false |- _ => apply Z.ltb_ge in H
  | H : (_ =? _) = true |- _ => apply Z.eqb_eq in H
  | H : (_ =? _) = false |- _ => apply Z.eqb_neq in H
  end.

Lemma digit_iff c : is_digit c = true <-> digit c.
Proof. unfold is_digit, digit. rewrite andb_true_iff, !Z.leb_le. tauto. Qed.
Lemma octal_iff c : is_octal c = true <-> octal c.
Proof. unfold is_octal, octal. rewrite andb_true_iff, !Z.leb_le. tauto. Qed.
Lemma line_iff c : is_line_terminator c = true <-> line_terminator c.
Proof. unfold is_line_terminator, line_terminator. rewrite !orb_true_iff, !Z.eqb_eq. tauto. Qed.

Lemma bool_iff_false b P : (b = true <-> P) -> (b = false <-> ~ P).
Proof. destruct b; intuition congruence. Qed.
Lemma digit_not c : is_digit c = false <-> ~ digit c.
Proof. apply bool_iff_false, digit_iff. Qed.
Lemma octal_not c : is_octal c = false <-> ~ octal c.
Proof. apply bool_iff_false, octal_iff. Qed.
Lemma line_not c : is_line_terminator c = false <-> ~ line_terminator c.
Proof. apply bool_iff_false, line_iff. Qed.

Lemma hex_iff c v : hex c v <-> is_xdigit c = true /\ v = hex_value c.
Proof.
  unfold hex, is_xdigit, hex_value. rewrite !orb_true_iff, !andb_true_iff, !Z.leb_le.
  destruct (Z.leb_spec 97 c), (Z.leb_spec c 102), (Z.leb_spec 65 c), (Z.leb_spec c 70); cbn [andb]; lia.
Qed.
Lemma is_hex_iff c : is_hex c <-> is_xdigit c = true.
Proof.
  split.
  - intros [v H]. apply hex_iff in H. tauto.
  - intro H. exists (hex_value c). apply hex_iff. tauto.
Qed.
Lemma is_hex_not c : ~ is_hex c <-> is_xdigit c = false.
Proof. rewrite is_hex_iff. destruct (is_xdigit c); intuition congruence. Qed.
Lemma hex_bound c : is_xdigit c = true -> 0 <= hex_value c < 16.
Proof.
  intro H. destruct (proj2 (hex_iff c (hex_value c)) (conj H eq_refl)) as [|[|]]; lia.
Qed.

(** The MV of digits *)
Definition mv (v : Z) (w : list Z) : Z := fold_left (fun a c => 16 * a + hex_value c) w v.
Definition xs (w : list Z) : Prop := Forall (fun c => is_xdigit c = true) w.

Lemma hexs_iff w v : hexs w v <-> xs w /\ v = mv 0 w.
Proof.
  split.
  - induction 1 as [|w v c d H [I1 I2] D]; [split; [constructor|reflexivity]|].
    apply hex_iff in D. destruct D as [D ->]. split.
    + apply Forall_app. split; [exact I1|]. constructor; [exact D|constructor].
    + unfold mv. rewrite fold_left_app. cbn [fold_left]. unfold mv in I2. rewrite <- I2. reflexivity.
  - intros [X ->]. induction w as [|c w IH] using rev_ind; [constructor|].
    apply Forall_app in X. destruct X as [X C]. inversion C; subst.
    unfold mv. rewrite fold_left_app. cbn [fold_left].
    constructor; [apply IH; exact X|apply hex_iff; split; [assumption|reflexivity]].
Qed.

Lemma mv_cons v c w : mv v (c :: w) = mv (16 * v + hex_value c) w.
Proof. reflexivity. Qed.

Lemma mv_ge w : forall v, xs w -> 0 <= v -> v <= mv v w.
Proof.
  induction w as [|c w IH]; intros v X V; [cbn; lia|].
  inversion X; subst. pose proof (hex_bound c H1). rewrite mv_cons.
  specialize (IH (16 * v + hex_value c) H2). lia.
Qed.

Lemma mv_app w u : forall v, mv v (w ++ u) = mv (mv v w) u.
Proof. intro v. apply fold_left_app. Qed.

Lemma step_value v c : is_xdigit c = true -> Z.lor (Z.shiftl v 4) (hex_value c) = 16 * v + hex_value c.
Proof.
  intro H. pose proof (hex_bound c H). rewrite lor_add by lia. change (2 ^ 4) with 16. lia.
Qed.

Lemma no_next_hex r : next_not is_hex r <-> match r with [] => True | c :: _ => is_xdigit c = false end.
Proof. destruct r as [|c r]; cbn; [tauto|]. apply is_hex_not. Qed.

(** ** A fixed number of digits *)
Lemma hex_digits_val n : forall s v0 v w r, hex_digits n s v0 = EVal v w r ->
  s = w ++ r /\ length w = n /\ xs w /\ v = mv v0 w.
Proof.
  induction n as [|n IH]; intros s v0 v w r H.
  - injection H as <- <- <-. repeat split. constructor.
  - cbn [hex_digits] in H. destruct s as [|c s]; [discriminate|].
    destruct (is_xdigit c) eqn:X; [|discriminate].
    rewrite (step_value v0 c X) in H.
    destruct (hex_digits n s (16 * v0 + hex_value c)) eqn:D; try discriminate.
    injection H as <- <- <-. destruct (IH _ _ _ _ _ D) as (-> & <- & XS & ->).
    repeat split; [constructor; assumption].
Qed.

Lemma hex_digits_bad n : forall s v0 w r, hex_digits n s v0 = EBad w r ->
  s = w ++ r /\ (length w < n)%nat /\ xs w /\ next_not is_hex r.
Proof.
  induction n as [|n IH]; intros s v0 w r H; [discriminate|].
  cbn [hex_digits] in H. destruct s as [|c s].
  - injection H as <- <-. repeat split; [cbn; lia|constructor].
  - destruct (is_xdigit c) eqn:X.
    + destruct (hex_digits n s (Z.lor (Z.shiftl v0 4) (hex_value c))) eqn:D; try discriminate.
      injection H as <- <-. destruct (IH _ _ _ _ D) as (-> & L & XS & N).
      repeat split; [cbn; lia|constructor; assumption|exact N].
    + injection H as <- <-. repeat split; [cbn; lia|constructor|apply no_next_hex; exact X].
Qed.

Lemma hex_digits_undef n : forall s v0, hex_digits n s v0 <> EUndef.
Proof.
  induction n as [|n IH]; intros s v0 H; [discriminate|].
  cbn [hex_digits] in H. destruct s as [|c s]; [discriminate|].
  destruct (is_xdigit c); [|discriminate].
  destruct (hex_digits n s (Z.lor (Z.shiftl v0 4) (hex_value c))) eqn:D; try discriminate.
  exact (IH _ _ D).
Qed.

Lemma hex_digits_complete w : forall v0 r, xs w ->
  hex_digits (length w) (w ++ r) v0 = EVal (mv v0 w) w r.
Proof.
  induction w as [|c w IH]; intros v0 r X; [reflexivity|].
  inversion X; subst. cbn [length hex_digits app]. rewrite H1, (step_value _ _ H1), (IH _ _ H2).
  reflexivity.
Qed.

Lemma hex_digits_short n : forall w v0 r, xs w -> (length w < n)%nat -> next_not is_hex r ->
  hex_digits n (w ++ r) v0 = EBad w r.
Proof.
  induction n as [|n IH]; intros w v0 r X L N; [lia|].
  destruct w as [|c w].
  - cbn [app hex_digits]. destruct r as [|c r]; [reflexivity|].
    apply no_next_hex in N. rewrite N. reflexivity.
  - inversion X; subst. cbn [app hex_digits]. rewrite H1.
    rewrite (IH w) by (assumption || cbn in L; lia). reflexivity.
Qed.

(** ** Digits in braces *)
Definition over (v : Z) : Z := if 0x10ffff <? v then -1 else v.

Lemma brace_val templ : forall s v0 v w r, 0 <= v0 <= 0x10ffff -> brace_digits templ s v0 = EVal v w r ->
  (exists d, s = d ++ 125 :: r /\ w = d ++ [125] /\ xs d /\ v = mv v0 d /\ v <= 0x10ffff)
  \/ (templ = true /\ r = []).
Proof.
  induction s as [|c s IH]; intros v0 v w r V H.
  - cbn [brace_digits] in H. destruct templ; cbn [andb] in H; [|discriminate].
    destruct (0 <=? v0); [|discriminate]. injection H as <- <- <-. right. tauto.
  - cbn [brace_digits] in H. destruct (Z.eqb_spec c 125) as [->|N].
    + destruct (0 <=? v0); [|discriminate]. injection H as <- <- <-. left.
      exists []. repeat split; [constructor|lia].
    + destruct (is_xdigit c) eqn:X; [|discriminate].
      destruct (Z.ltb_spec v0 0); [lia|]. rewrite (step_value _ _ X) in H.
      pose proof (hex_bound c X).
      destruct (Z.ltb_spec 0x10ffff (16 * v0 + hex_value c)).
      * exfalso. destruct s as [|d s]; [cbn in H; rewrite andb_false_r in H; discriminate|].
        cbn [brace_digits] in H.
        destruct (d =? 125); [discriminate|]. destruct (is_xdigit d); discriminate.
      * destruct (brace_digits templ s (16 * v0 + hex_value c)) eqn:D; try discriminate.
        injection H as <- <- <-.
        assert (V' : 0 <= 16 * v0 + hex_value c <= 0x10ffff) by lia.
        destruct (IH _ _ _ _ V' D) as [(d & -> & -> & XS & -> & B)|R]; [|right; exact R].
        left. exists (c :: d). repeat split; [constructor; assumption|exact B].
Qed.

Lemma brace_complete templ d : forall v0 r, 0 <= v0 -> xs d -> mv v0 d <= 0x10ffff ->
  brace_digits templ (d ++ 125 :: r) v0 = EVal (mv v0 d) (d ++ [125]) r.
Proof.
  induction d as [|c d IH]; intros v0 r V X B.
  - cbn [app brace_digits mv fold_left]. rewrite Z.eqb_refl.
    destruct (Z.leb_spec 0 v0); [reflexivity|lia].
  - inversion X; subst. cbn [app brace_digits].
    destruct (Z.eqb_spec c 125) as [->|N]; [discriminate|].
    rewrite H1, (step_value _ _ H1). destruct (Z.ltb_spec v0 0); [lia|].
    pose proof (hex_bound c H1). rewrite mv_cons in B.
    pose proof (mv_ge d (16 * v0 + hex_value c) H2).
    destruct (Z.ltb_spec 0x10ffff (16 * v0 + hex_value c)); [lia|].
    rewrite IH by (assumption || lia). reflexivity.
Qed.

(** Undefined only after too many digits. *)
Lemma brace_undef templ : forall s v0, -1 <= v0 <= 0x10ffff -> brace_digits templ s v0 = EUndef ->
  (v0 = -1 /\ exists c r, s = c :: r /\ is_xdigit c = true) \/
  (0 <= v0 /\ exists d c r, s = d ++ c :: r /\ xs d /\ is_xdigit c = true /\ 0x10ffff < mv v0 d).
Proof.
  induction s as [|c s IH]; intros v0 V H.
  - cbn in H. destruct (templ && (0 <=? v0)); discriminate.
  - cbn [brace_digits] in H. destruct (c =? 125); [destruct (0 <=? v0); discriminate|].
    destruct (is_xdigit c) eqn:X; [|discriminate].
    destruct (Z.ltb_spec v0 0).
    + left. split; [lia|]. exists c, s. tauto.
    + right. split; [lia|]. rewrite (step_value _ _ X) in H. pose proof (hex_bound c X).
      destruct (Z.ltb_spec 0x10ffff (16 * v0 + hex_value c)).
      * destruct (brace_digits templ s (-1)) eqn:D; try discriminate.
        assert (V' : -1 <= -1 <= 0x10ffff) by lia.
        destruct (IH _ V' D) as [(_ & e & r & -> & E)|[A _]]; [|lia].
        exists [c], e, r. split; [reflexivity|]. split; [constructor; [exact X|constructor]|]. split; [exact E|rewrite mv_cons; exact H2].
      * destruct (brace_digits templ s (16 * v0 + hex_value c)) eqn:D; try discriminate.
        assert (V' : -1 <= 16 * v0 + hex_value c <= 0x10ffff) by lia.
        destruct (IH _ V' D) as [(A & _)|(_ & d & e & r & -> & XS & E & B)]; [lia|].
        exists (c :: d), e, r. repeat split; [constructor; assumption|exact E|exact B].
Qed.

(** ** Single characters *)
Lemma simple_iff c v : simple_escape c = Some v <-> In (c, v) single /\ c <> 34 /\ c <> 39 /\ c <> 92.
Proof.
  unfold simple_escape, single. cbn [In]. split.
  - intro H.
    repeat match type of H with (if ?b then _ else _) = _ =>
      destruct b eqn:?; bdestr; [injection H as <-; subst c; split; [tauto|lia]|] end.
    discriminate.
  - intros [H N].
    repeat match type of H with _ \/ _ => destruct H as [H|H] end;
      try contradiction; injection H as <- <-; try lia; reflexivity.
Qed.

Lemma simple_none c : simple_escape c = None -> forall v, In (c, v) single -> c = 34 \/ c = 39 \/ c = 92.
Proof.
  intros H v I. destruct (Z.eq_dec c 34); [tauto|]. destruct (Z.eq_dec c 39); [tauto|].
  destruct (Z.eq_dec c 92); [tauto|].
  assert (simple_escape c = Some v) by (apply simple_iff; tauto). congruence.
Qed.

Lemma single_small c v : In (c, v) single -> v <= 0xffff /\ 0 <= v.
Proof.
  intro H. unfold single in H. cbn [In] in H.
  repeat match type of H with _ \/ _ => destruct H as [H|H] end;
    try contradiction; injection H as <- <-; lia.
Qed.

Lemma hex2_value a b : mv 0 [a; b] = 16 * hex_value a + hex_value b.
Proof. cbn [mv fold_left]. lia. Qed.

Lemma mv4_small w : xs w -> length w = 4%nat -> 0 <= mv 0 w <= 0xffff.
Proof.
  intros X L. destruct w as [|a [|b [|c [|d [|]]]]]; try discriminate.
  unfold xs in X. inversion X as [|? ? A X1]; subst. inversion X1 as [|? ? B X2]; subst.
  inversion X2 as [|? ? C X3]; subst. inversion X3 as [|? ? D X4]; subst.
  pose proof (hex_bound a A). pose proof (hex_bound b B). pose proof (hex_bound c C).
  pose proof (hex_bound d D). cbn [mv fold_left]. lia.
Qed.

(** ** Octal escapes *)
Lemma octal_range c : octal c -> 0 <= c - 48 < 8.
Proof. unfold octal. lia. Qed.

Lemma peek_octal r : is_octal (peek r) = true -> exists c r', r = c :: r' /\ octal c.
Proof.
  destruct r as [|c r]; [discriminate|]. intro H. exists c, r. split; [reflexivity|].
  apply octal_iff. exact H.
Qed.

Lemma peek_not_octal r : is_octal (peek r) = false <-> next_not octal r.
Proof. destruct r as [|c r]; cbn [peek next_not]; [|apply octal_not]. split; [tauto|reflexivity]. Qed.
Lemma peek_not_digit r : is_digit (peek r) = false <-> next_not digit r.
Proof. destruct r as [|c r]; cbn [peek next_not]; [|apply digit_not]. split; [tauto|reflexivity]. Qed.

Lemma octal_sound a r0 v r : 48 <= a <= 55 -> (a = 48 -> exists d t, r0 = d :: t /\ digit d) ->
  octal_escape (a :: r0) = (v, r) -> escape true (a :: r0) (units v) true r.
Proof.
  intros A Z0 H. unfold octal_escape in H. destruct r0 as [|b r0].
  - injection H as <- <-. rewrite units_small by lia.
    apply leg_one; [|exact I]. destruct (Z.eq_dec a 48) as [E|]; [|lia].
    destruct (Z0 E) as (d & t & E' & _). discriminate.
  - destruct ((48 <=? a) && (a <=? 51) && is_octal b && is_octal (peek r0)) eqn:T.
    + bdestr. rename H1 into HP. rename H2 into H1. apply octal_iff in H1. destruct (peek_octal _ HP) as (c & r1 & -> & C).
      cbn [peek tl] in H. apply pair_equal_spec in H. destruct H as [<- <-].
      pose proof (octal_range _ H1). pose proof (octal_range _ C).
      assert (E1 : Z.lor (Z.shiftl (a - 48) 6) (Z.shiftl (b - 48) 3) = (8 * (a - 48) + (b - 48)) * 8).
      { change 6 with (3 + 3) at 1. rewrite <- Z.shiftl_shiftl by lia. rewrite <- Z.shiftl_lor.
        rewrite lor_add by (change (2 ^ 3) with 8; lia). rewrite Z.shiftl_mul_pow2 by lia.
        change (2 ^ 3) with 8. lia. }
      rewrite E1. replace ((8 * (a - 48) + (b - 48)) * 8) with (Z.shiftl (8 * (a - 48) + (b - 48)) 3)
        by (rewrite Z.shiftl_mul_pow2 by lia; reflexivity).
      rewrite lor_add by (change (2 ^ 3) with 8; lia). change (2 ^ 3) with 8.
      rewrite units_small by lia.
      replace ((8 * (a - 48) + (b - 48)) * 8 + (c - 48)) with (64 * (a - 48) + 8 * (b - 48) + (c - 48)) by lia.
      apply leg_three; assumption || lia.
    + destruct (is_octal a && is_octal b) eqn:T2.
      * bdestr. apply octal_iff in H1. apply pair_equal_spec in H. destruct H as [<- <-]. pose proof (octal_range _ H1).
        rewrite lor_add by (change (2 ^ 3) with 8; lia). change (2 ^ 3) with 8.
        rewrite units_small by lia. replace ((a - 48) * 8 + (b - 48)) with (8 * (a - 48) + (b - 48)) by lia.
        destruct (Z_le_gt_dec a 51).
        -- apply leg_two_low; [lia|assumption|]. apply peek_not_octal.
           apply octal_iff in H1. rewrite H1 in T.
           destruct (Z.leb_spec 48 a), (Z.leb_spec a 51); try lia. exact T.
        -- apply leg_two_high; [lia|assumption].
      * assert (OA : is_octal a = true) by (apply octal_iff; unfold octal; lia).
        rewrite OA in T2. cbn [andb] in T2. injection H as <- <-. rewrite units_small by lia.
        destruct (Z.eq_dec a 48) as [->|N].
        -- destruct (Z0 eq_refl) as (d & t & E & D). injection E as -> ->.
           apply octal_not in T2. apply leg_zero. unfold octal, digit in *. lia.
        -- apply leg_one; [lia|]. cbn. apply octal_not. exact T2.
Qed.

(** ** Escapes in strings *)
Lemma escape_sound s v l r : string_escape s = Ok (v, l, r) -> escape true s v l r.
Proof.
  destruct s as [|c s]; [discriminate|]. cbn [string_escape]. intro H.
  destruct (simple_escape c) as [x|] eqn:SE.
  - injection H as <- <- <-. apply simple_iff in SE. destruct SE as [SE _].
    rewrite units_small by (apply (single_small c x); exact SE). apply esc_single. exact SE.
  - destruct (Z.eqb_spec c 120) as [->|N1].
    + destruct (hex_digits 2 s 0) eqn:D; try discriminate. injection H as <- <- <-.
      destruct (hex_digits_val _ _ _ _ _ _ D) as (-> & L & X & ->).
      destruct w as [|a [|b [|]]]; try discriminate.
      unfold xs in X. inversion X as [|? ? A X1]; subst. inversion X1 as [|? ? B _]; subst.
      rewrite hex2_value. pose proof (hex_bound a A). pose proof (hex_bound b B).
      rewrite units_small by lia. cbn [app]. apply esc_hex; apply hex_iff; tauto.
    + destruct (Z.eqb_spec c 117) as [->|N2].
      * destruct (unicode_escape false s) eqn:D; try discriminate. injection H as <- <- <-.
        unfold unicode_escape in D. destruct s as [|c s]; [discriminate|].
        destruct (Z.eqb_spec c 123) as [->|N3].
        -- destruct (brace_digits false s 0) eqn:B; try discriminate. injection D as <- <- <-.
           assert (V0 : 0 <= 0 <= 0x10ffff) by lia.
           destruct (brace_val _ _ _ _ _ _ V0 B) as [(d & -> & _ & X & E & LE)|[]]; [|discriminate].
           rewrite units_encode. apply esc_brace; [apply hexs_iff; tauto|exact LE|discriminate].
        -- destruct (hex_digits_val _ _ _ _ _ _ D) as (E & L & X & ->). rewrite E.
           pose proof (mv4_small _ X L).
           destruct w as [|a [|b [|e [|f [|]]]]]; try discriminate. cbn [app].
           rewrite units_small by lia. apply esc_four. apply hexs_iff. tauto.
      * destruct (is_digit c) eqn:DG.
        -- apply digit_iff in DG. unfold digit in DG.
           destruct ((c =? 48) && negb (is_digit (peek s))) eqn:ZZ.
           ++ bdestr. subst c. injection H as <- <- <-. change (units 0) with [0].
              apply esc_nul. apply peek_not_digit. exact H1.
           ++ destruct ((c =? 56) || (c =? 57)) eqn:E89.
              ** injection H as <- <- <-. rewrite units_small by lia. apply leg_digit.
                 apply orb_true_iff in E89. rewrite !Z.eqb_eq in E89. exact E89.
              ** destruct (octal_escape (c :: s)) as [x r'] eqn:OE. injection H as <- <- <-. bdestr.
                 apply octal_sound; [lia| |exact OE]. intros ->.
                 rewrite Z.eqb_refl in ZZ. cbn [andb] in ZZ. bdestr.
                 destruct s as [|d t]; [discriminate|]. exists d, t. split; [reflexivity|].
                 apply digit_iff. exact ZZ.
        -- destruct (negb (is_line_terminator c)) eqn:LT.
           ++ injection H as <- <- <-. bdestr. apply line_not in LT. apply digit_not in DG.
              destruct (in_dec Z.eq_dec c (map fst single)) as [IN|NI].
              ** apply in_map_iff in IN. destruct IN as ((c', x) & E & IN). cbn in E. subst c'.
                 pose proof (simple_none _ SE _ IN) as Q.
                 assert (units c = [x]).
                 { unfold single in IN. cbn [In] in IN.
                   repeat match type of IN with _ \/ _ => destruct IN as [IN|IN] end;
                     try contradiction; injection IN as <- <-; try lia; reflexivity. }
                 rewrite H. apply esc_single. exact IN.
              ** rewrite units_encode. apply esc_other; assumption.
           ++ injection H as <- <- <-. bdestr. apply line_iff in LT. apply esc_line. exact LT.
Qed.

Lemma not_single c : ~ In c (map fst single) -> simple_escape c = None.
Proof.
  intro H. destruct (simple_escape c) eqn:E; [|reflexivity]. exfalso. apply H.
  apply simple_iff in E. destruct E as [E _]. apply in_map_iff. exists (c, z). tauto.
Qed.

Lemma digit_not_single c : digit c -> simple_escape c = None /\ (c =? 120) = false /\ (c =? 117) = false.
Proof.
  unfold digit. intro H. repeat split; try (apply Z.eqb_neq; lia).
  unfold simple_escape.
  repeat match goal with |- context [c =? ?k] => destruct (Z.eqb_spec c k); [lia|] end. reflexivity.
Qed.

Lemma octal_not_digit r : next_not octal r -> is_octal (peek r) = false.
Proof. apply peek_not_octal. Qed.

Lemma escape_complete lax s v l r : escape lax s v l r -> string_escape s = Ok (v, l, r).
Proof.
  intro H. destruct H.
  - cbn [string_escape]. destruct (simple_escape c) as [x|] eqn:SE.
    + apply simple_iff in SE. destruct SE as [SE N].
      assert (x = v).
      { unfold single in *. cbn [In] in *.
        repeat match type of H with _ \/ _ => destruct H as [H|H] end;
          try contradiction; injection H as <- <-; try lia;
          repeat match type of SE with _ \/ _ => destruct SE as [SE|SE] end;
          try contradiction; try discriminate; injection SE as <-; reflexivity. }
      subst x. rewrite units_small by (apply (single_small c v); exact H). reflexivity.
    + destruct (simple_none _ SE _ H) as [-> | [-> | ->]];
        unfold single in H; cbn [In] in H;
        repeat match type of H with _ \/ _ => destruct H as [H|H] end;
          try contradiction; try discriminate; injection H as <-; reflexivity.
  - cbn [string_escape]. rewrite (not_single _ H).
    destruct (Z.eqb_spec c 120); [contradiction|]. destruct (Z.eqb_spec c 117); [contradiction|].
    apply digit_not in H0. apply line_not in H3. rewrite H0, H3. cbn [negb].
    rewrite units_encode. reflexivity.
  - cbn [string_escape].
    assert (simple_escape c = None /\ (c =? 120) = false /\ (c =? 117) = false /\ is_digit c = false)
      as (-> & -> & -> & ->).
    { destruct H as [-> | [-> | [-> | ->]]]; repeat split. }
    apply line_iff in H. rewrite H. reflexivity.
  - cbn [string_escape]. apply peek_not_digit in H. rewrite H. reflexivity.
  - apply hex_iff in H, H0. destruct H as [A ->], H0 as [B ->].
    change (string_escape (120 :: a :: b :: r)) with
      (match hex_digits 2 ([a; b] ++ r) 0 with
       | EVal v _ r' => Ok (units v, false, r') | EBad _ _ => Bad | EUndef => Undef end).
    assert (HD : hex_digits 2 ([a; b] ++ r) 0 = EVal (mv 0 [a; b]) [a; b] r)
      by (apply (hex_digits_complete [a; b] 0 r); repeat constructor; assumption).
    rewrite HD.
    rewrite hex2_value. pose proof (hex_bound a A). pose proof (hex_bound b B).
    rewrite units_small by lia. reflexivity.
  - apply hexs_iff in H. destruct H as [X ->].
    change (string_escape (117 :: a :: b :: c :: d :: r)) with
      (match unicode_escape false ([a; b; c; d] ++ r) with
       | EVal v _ r' => Ok (units v, false, r') | EBad _ _ => Bad | EUndef => Undef end).
    assert (U : unicode_escape false ([a; b; c; d] ++ r) = hex_digits 4 ([a; b; c; d] ++ r) 0).
    { unfold unicode_escape. cbn [app]. destruct (Z.eqb_spec a 123) as [->|]; [|reflexivity].
      inversion X. discriminate. }
    rewrite U. change 4%nat with (length [a; b; c; d]). rewrite (hex_digits_complete [a; b; c; d] 0 r X).
    pose proof (mv4_small _ X eq_refl). rewrite units_small by lia. reflexivity.
  - apply hexs_iff in H. destruct H as [X ->].
    change (string_escape (117 :: 123 :: w ++ 125 :: r)) with
      (match econs 123 (brace_digits false (w ++ 125 :: r) 0) with
       | EVal v _ r' => Ok (units v, false, r') | EBad _ _ => Bad | EUndef => Undef end).
    rewrite brace_complete by (assumption || lia). cbn [econs]. rewrite units_encode. reflexivity.
  - destruct H as [-> | ->]; reflexivity.
  - assert (D : digit a) by (unfold digit; lia).
    destruct (digit_not_single _ D) as (S1 & S2 & S3). apply digit_iff in D.
    cbn [string_escape]. rewrite S1, S2, S3, D.
    destruct (Z.eqb_spec a 48); [lia|]. destruct (Z.eqb_spec a 56); [lia|]. destruct (Z.eqb_spec a 57); [lia|].
    cbn [andb orb]. apply peek_not_octal in H0. unfold octal_escape. destruct r as [|b r].
    + rewrite units_small by lia. reflexivity.
    + cbn [peek] in H0. rewrite H0, !andb_false_r. cbn [andb]. rewrite units_small by lia. reflexivity.
  - assert (D : digit a) by (unfold digit; lia).
    destruct (digit_not_single _ D) as (S1 & S2 & S3). apply digit_iff in D.
    cbn [string_escape]. rewrite S1, S2, S3, D. cbn [peek].
    assert (DB : is_digit b = true) by (apply digit_iff; unfold digit, octal in *; lia). rewrite DB.
    cbn [negb]. rewrite andb_false_r.
    destruct (Z.eqb_spec a 56); [lia|]. destruct (Z.eqb_spec a 57); [lia|].
    apply peek_not_octal in H1. unfold octal_escape. rewrite H1, andb_false_r.
    assert (OA : is_octal a = true) by (apply octal_iff; unfold octal; lia).
    pose proof (octal_range _ H0). apply octal_iff in H0. rewrite OA, H0. cbn [andb orb].
    rewrite lor_add by (change (2 ^ 3) with 8; lia). change (2 ^ 3) with 8.
    rewrite units_small by lia. replace ((a - 48) * 8 + (b - 48)) with (8 * (a - 48) + (b - 48)) by lia.
    reflexivity.
  - assert (D : digit a) by (unfold digit; lia).
    destruct (digit_not_single _ D) as (S1 & S2 & S3). apply digit_iff in D.
    cbn [string_escape]. rewrite S1, S2, S3, D. cbn [peek].
    destruct (Z.eqb_spec a 48); [lia|]. destruct (Z.eqb_spec a 56); [lia|]. destruct (Z.eqb_spec a 57); [lia|].
    cbn [andb orb]. unfold octal_escape.
    destruct (Z.leb_spec a 51); [lia|]. rewrite andb_false_r. cbn [andb].
    assert (OA : is_octal a = true) by (apply octal_iff; unfold octal; lia).
    pose proof (octal_range _ H0). apply octal_iff in H0. rewrite OA, H0. cbn [andb].
    rewrite lor_add by (change (2 ^ 3) with 8; lia). change (2 ^ 3) with 8.
    rewrite units_small by lia. replace ((a - 48) * 8 + (b - 48)) with (8 * (a - 48) + (b - 48)) by lia.
    reflexivity.
  - assert (D : digit a) by (unfold digit; lia).
    destruct (digit_not_single _ D) as (S1 & S2 & S3). apply digit_iff in D.
    cbn [string_escape]. rewrite S1, S2, S3, D. cbn [peek].
    assert (DB : is_digit b = true) by (apply digit_iff; unfold digit, octal in *; lia). rewrite DB.
    cbn [negb]. rewrite andb_false_r.
    destruct (Z.eqb_spec a 56); [lia|]. destruct (Z.eqb_spec a 57); [lia|]. cbn [orb].
    unfold octal_escape. cbn [peek tl].
    destruct (Z.leb_spec 48 a); [|lia]. destruct (Z.leb_spec a 51); [|lia].
    pose proof (octal_range _ H0). pose proof (octal_range _ H1).
    apply octal_iff in H0, H1. rewrite H0, H1. cbn [andb].
    assert (E1 : Z.lor (Z.shiftl (a - 48) 6) (Z.shiftl (b - 48) 3) = (8 * (a - 48) + (b - 48)) * 8).
    { change 6 with (3 + 3) at 1. rewrite <- Z.shiftl_shiftl by lia. rewrite <- Z.shiftl_lor.
      rewrite lor_add by (change (2 ^ 3) with 8; lia). rewrite Z.shiftl_mul_pow2 by lia.
      change (2 ^ 3) with 8. lia. }
    rewrite E1. replace ((8 * (a - 48) + (b - 48)) * 8) with (Z.shiftl (8 * (a - 48) + (b - 48)) 3)
      by (rewrite Z.shiftl_mul_pow2 by lia; reflexivity).
    rewrite lor_add by (change (2 ^ 3) with 8; lia). change (2 ^ 3) with 8.
    rewrite units_small by lia.
    replace ((8 * (a - 48) + (b - 48)) * 8 + (c - 48)) with (64 * (a - 48) + 8 * (b - 48) + (c - 48)) by lia.
    reflexivity.
  - destruct H as [-> | ->]; reflexivity.
Qed.

(** ** Strings *)
Lemma escape_length lax s v l r : escape lax s v l r -> (length r < length s)%nat.
Proof. destruct 1; cbn [length]; try lia. rewrite app_length. cbn [length]. lia. Qed.

Definition quote (q : Z) : Prop := q = 34 \/ q = 39.

Lemma body_sound q : forall f s v e l r, string_body q f s = Ok (v, e, l, r) -> string_literal true q s v e l r.
Proof.
  induction f as [|f IH]; intros s v e l r H; [discriminate|].
  cbn [string_body] in H. destruct s as [|c s]; [discriminate|].
  destruct (Z.eqb_spec c q) as [->|N]; [injection H as <- <- <- <-; constructor|].
  destruct (negb (c =? 0x2028) && negb (c =? 0x2029) && is_line_terminator c) eqn:LT; [discriminate|].
  destruct (Z.eqb_spec c 92) as [->|N2].
  - destruct (string_escape s) as [((x, k), s')| |] eqn:ES; try discriminate.
    destruct (string_body q f s') as [(((t, e'), l'), r')| |] eqn:B; try discriminate.
    injection H as <- <- <- <-. eapply str_escape; [apply escape_sound; exact ES|]. apply IH. exact B.
  - destruct (string_body q f s) as [(((t, e'), l'), r')| |] eqn:B; try discriminate.
    injection H as <- <- <- <-. rewrite units_encode. apply str_char; try assumption.
    + intros ->. discriminate.
    + intros ->. discriminate.
    + apply IH. exact B.
Qed.

Lemma body_complete lax q : quote q -> forall s v e l r, string_literal lax q s v e l r ->
  forall f, (length s <= f)%nat -> string_body q f s = Ok (v, e, l, r).
Proof.
  intros Q s v e l r H. induction H as [r|c s v e l r N1 N2 N3 N4 H IH|s s' x k v e l r E H IH]; intros f F.
  - destruct f; [cbn in F; lia|]. cbn [string_body]. rewrite Z.eqb_refl. reflexivity.
  - destruct f; [cbn in F; lia|]. cbn [string_body].
    destruct (Z.eqb_spec c q); [contradiction|].
    assert (LT : (negb (c =? 0x2028) && negb (c =? 0x2029) && is_line_terminator c) = false).
    { unfold is_line_terminator. destruct (Z.eqb_spec c 0x2028); [reflexivity|].
      destruct (Z.eqb_spec c 0x2029); [reflexivity|]. destruct (Z.eqb_spec c 0x0a); [lia|].
      destruct (Z.eqb_spec c 0x0d); [lia|]. reflexivity. }
    rewrite LT. destruct (Z.eqb_spec c 92); [contradiction|].
    rewrite IH by (cbn in F; lia). rewrite units_encode. reflexivity.
  - destruct f; [cbn in F; lia|]. cbn [string_body].
    destruct (Z.eqb_spec 92 q); [destruct Q; lia|]. cbn [Z.eqb negb andb Pos.eqb].
    change (is_line_terminator 92) with false. cbn [andb].
    rewrite (escape_complete _ _ _ _ _ E). pose proof (escape_length _ _ _ _ _ E).
    rewrite IH by (cbn in F; lia). reflexivity.
Qed.

(** ** Surrogates *)
Definition is_unit (c : Z) : Prop := 0 <= c <= 0xffff.

Lemma encode_small c : c <= 0xffff -> encode c = [c].
Proof. intro H. unfold encode. destruct (Z.leb_spec c 0xffff); [reflexivity|lia]. Qed.

Lemma well_formed_sound : forall n t, (length t <= n)%nat -> Forall is_unit t -> well_formed t = true -> well_formed_text t.
Proof.
  induction n as [|n IH]; intros t L U H.
  - destruct t; [|cbn in L; lia]. exists []. split; [constructor|reflexivity].
  - destruct t as [|c t]; [exists []; split; [constructor|reflexivity]|].
    cbn [well_formed] in H. inversion U as [|? ? UC UT]; subst. unfold is_unit in UC.
    destruct (is_trailing c) eqn:T; [discriminate|]. destruct (is_leading c) eqn:LD.
    + destruct t as [|d t]; [discriminate|]. destruct (is_trailing d) eqn:TD; [|discriminate].
      inversion UT as [|? ? _ UT']; subst.
      destruct (IH t) as (cs & F & ->); [cbn in L; lia|exact UT'|exact H|].
      unfold is_leading, is_trailing in *. bdestr.
      exists (0x10000 + (c - 0xd800) * 0x400 + (d - 0xdc00) :: cs). split.
      * constructor; [|exact F]. unfold scalar. lia.
      * cbn [flat_map].
        assert (E : encode (0x10000 + (c - 0xd800) * 0x400 + (d - 0xdc00)) = [c; d]).
        { unfold encode.
          destruct (Z.leb_spec (0x10000 + (c - 0xd800) * 0x400 + (d - 0xdc00)) 0xffff); [lia|].
          replace (0x10000 + (c - 0xd800) * 0x400 + (d - 0xdc00) - 0x10000)
            with ((d - 0xdc00) + (c - 0xd800) * 0x400) by lia.
          rewrite Z.div_add, Z.mod_add by lia. rewrite Z.div_small, Z.mod_small by lia.
          f_equal; [lia|]. f_equal. lia. }
        rewrite E. reflexivity.
    + destruct (IH t) as (cs & F & ->); [cbn in L; lia|exact UT|exact H|].
      exists (c :: cs). split.
      * constructor; [|exact F]. unfold is_leading, is_trailing in *.
        apply andb_false_iff in T, LD. rewrite !Z.leb_gt in *. unfold scalar. lia.
      * cbn [flat_map]. rewrite encode_small by lia. reflexivity.
Qed.

Lemma well_formed_complete cs : Forall scalar cs -> well_formed (flat_map encode cs) = true.
Proof.
  induction 1 as [|c cs S _ IH]; [reflexivity|]. cbn [flat_map]. unfold scalar in S.
  unfold encode at 1. destruct (Z.leb_spec c 0xffff).
  - cbn [app well_formed].
    assert (is_trailing c = false) as -> by (unfold is_trailing; apply andb_false_iff; rewrite !Z.leb_gt; lia).
    assert (is_leading c = false) as -> by (unfold is_leading; apply andb_false_iff; rewrite !Z.leb_gt; lia).
    exact IH.
  - cbn [app well_formed].
    assert (0 <= (c - 0x10000) / 0x400 < 0x400).
    { split; [apply Z.div_pos; lia|apply Z.div_lt_upper_bound; lia]. }
    pose proof (Z.mod_pos_bound (c - 0x10000) 0x400).
    assert (is_trailing ((c - 0x10000) / 0x400 + 0xd800) = false) as ->
      by (unfold is_trailing; apply andb_false_iff; rewrite !Z.leb_gt; lia).
    assert (is_leading ((c - 0x10000) / 0x400 + 0xd800) = true) as ->
      by (unfold is_leading; apply andb_true_iff; rewrite !Z.leb_le; lia).
    assert (is_trailing ((c - 0x10000) mod 0x400 + 0xdc00) = true) as ->
      by (unfold is_trailing; apply andb_true_iff; rewrite !Z.leb_le; lia).
    exact IH.
Qed.

Lemma well_formed_iff t : Forall is_unit t -> (well_formed t = true <-> well_formed_text t).
Proof.
  intro U. split.
  - apply (well_formed_sound (length t)); [lia|exact U].
  - intros (cs & F & ->). apply well_formed_complete. exact F.
Qed.

(** The text of a string literal consists of units. *)
Definition point (c : Z) : Prop := 0 <= c <= 0x10ffff.

Lemma encode_units c : point c -> Forall is_unit (encode c).
Proof.
  unfold point. intro H. unfold encode. destruct (Z.leb_spec c 0xffff).
  - constructor; [unfold is_unit; lia|constructor].
  - assert (0 <= (c - 0x10000) / 0x400 < 0x400).
    { split; [apply Z.div_pos; lia|apply Z.div_lt_upper_bound; lia]. }
    pose proof (Z.mod_pos_bound (c - 0x10000) 0x400).
    constructor; [unfold is_unit; lia|]. constructor; [unfold is_unit; lia|constructor].
Qed.

Lemma escape_units lax s v l r : Forall point s -> escape lax s v l r -> Forall is_unit v /\ Forall point r.
Proof.
  intros P H.
  assert (One : forall x, 0 <= x <= 0xffff -> Forall is_unit [x]) by (intros; constructor; [assumption|constructor]).
  destruct H; unfold octal in *;
    repeat match goal with H : Forall point (_ :: _) |- _ => inversion H; clear H; subst end.
  - split; [apply One; pose proof (single_small _ _ H); lia|assumption].
  - split; [apply encode_units|]; assumption.
  - split; [constructor|assumption].
  - split; [apply One; lia|assumption].
  - apply hex_iff in H, H0. destruct H as [A ->], H0 as [B ->].
    pose proof (hex_bound a A). pose proof (hex_bound b B). split; [apply One; lia|assumption].
  - apply hexs_iff in H. destruct H as [X ->]. split; [apply One; apply mv4_small; [exact X|reflexivity]|assumption].
  - apply hexs_iff in H. destruct H as [X ->]. split.
    + apply encode_units. pose proof (mv_ge w 0 X). unfold point. lia.
    + match goal with H : Forall point (w ++ _) |- _ => apply Forall_app in H; destruct H as [_ H]; inversion H; assumption end.
  - split; [apply One; lia|]. constructor; assumption.
  - split; [apply One; lia|assumption].
  - split; [apply One; lia|assumption].
  - split; [apply One; lia|assumption].
  - split; [apply One; lia|assumption].
  - split; [apply One; lia|assumption].
Qed.

Lemma literal_units lax q s v e l r : Forall point s -> string_literal lax q s v e l r -> Forall is_unit v.
Proof.
  intros P H. induction H as [r|c s v e l r N1 N2 N3 N4 H IH|s s' x k v e l r E H IH].
  - constructor.
  - inversion P; subst. apply Forall_app. split; [apply encode_units; assumption|apply IH; assumption].
  - inversion P; subst. destruct (escape_units _ _ _ _ _ H3 E). apply Forall_app. split; [assumption|apply IH; assumption].
Qed.

(** ** The token *)
Theorem string_actual q s t : quote q -> Forall point s ->
  (lex_string q s = Ok t <->
   string_literal true q s (text t) (has_escape t) (has_legacy t) (after t) /\
   (unpaired t = false <-> well_formed_text (text t))).
Proof.
  intros Q P. unfold lex_string. split.
  - destruct (string_body q (length s) s) as [(((v, e), l), r)| |] eqn:B; try discriminate.
    intro H. injection H as <-. cbn [text has_escape has_legacy after unpaired].
    apply body_sound in B. split; [exact B|].
    rewrite negb_false_iff. apply well_formed_iff. exact (literal_units _ _ _ _ _ _ _ P B).
  - destruct t as [v e l u r]. cbn [text has_escape has_legacy after unpaired]. intros [B U].
    rewrite (body_complete true q Q _ _ _ _ _ B) by lia.
    pose proof (well_formed_iff _ (literal_units _ _ _ _ _ _ _ P B)) as W.
    f_equal. f_equal. destruct (well_formed v), u; cbn; try reflexivity; intuition congruence.
Qed.

(** Empty braces *)
Definition empty_braces (s : list Z) : Prop := exists a b, s = a ++ [92; 117; 123; 125] ++ b.

Lemma escape_strict s v l r : escape true s v l r -> (forall t, s <> 117 :: 123 :: 125 :: t) -> escape false s v l r.
Proof.
  intros H N. destruct H; try (constructor; assumption).
  - apply esc_brace; try assumption. intros _ ->. exact (N r eq_refl).
Qed.

Lemma escape_suffix lax s v l r : escape lax s v l r -> exists w, s = w ++ r.
Proof.
  destruct 1.
  - exists [c]. reflexivity.
  - exists [c]. reflexivity.
  - exists [c]. reflexivity.
  - exists [48]. reflexivity.
  - exists [120; a; b]. reflexivity.
  - exists [117; a; b; c; d]. reflexivity.
  - exists (117 :: 123 :: w ++ [125]). cbn. rewrite <- app_assoc. reflexivity.
  - exists [48]. reflexivity.
  - exists [a]. reflexivity.
  - exists [a; b]. reflexivity.
  - exists [a; b]. reflexivity.
  - exists [a; b; c]. reflexivity.
  - exists [c]. reflexivity.
Qed.

Lemma literal_strict q s v e l r : string_literal true q s v e l r -> ~ empty_braces s -> string_literal false q s v e l r.
Proof.
  intros H. induction H as [r|c s v e l r N1 N2 N3 N4 H IH|s s' x k v e l r E H IH]; intro NE.
  - constructor.
  - apply str_char; try assumption. apply IH. intros (a & b & ->). apply NE. exists (c :: a), b. reflexivity.
  - eapply str_escape.
    + apply escape_strict; [exact E|]. intros t ->. apply NE. exists [], t. reflexivity.
    + apply IH. intros (a & b & ->). destruct (escape_suffix _ _ _ _ _ E) as [w ->].
      apply NE. exists (92 :: w ++ a), b. cbn. rewrite <- app_assoc. reflexivity.
Qed.

Lemma escape_lax s v l r : escape false s v l r -> escape true s v l r.
Proof. destruct 1; try (constructor; assumption). apply esc_brace; try assumption. discriminate. Qed.

Lemma literal_lax q s v e l r : string_literal false q s v e l r -> string_literal true q s v e l r.
Proof.
  induction 1; [constructor|apply str_char; assumption|eapply str_escape; [apply escape_lax|]; eassumption].
Qed.
