(** * Reading numbers from texts: scanning *)
Require Import ZArith List Bool Lia.
From Verif Require Import DtoaModel DtoaSpec LexNumModel LexNumSpec LexNumRound.
Import ListNotations.
Local Open Scope Z_scope.

Notation is_digit := LexNumModel.is_digit.
Notation decimal_of := LexNumSpec.decimal_of.

(** ** Digits *)

Ltac chars :=
  repeat match goal with
  | |- context [?a <=? ?b] => destruct (Z.leb_spec a b)
  | |- context [?a <? ?b] => destruct (Z.ltb_spec a b)
  | |- context [?a =? ?b] => destruct (Z.eqb_spec a b)
  end; cbn [andb orb negb]; try lia; try reflexivity.

Lemma digit_ten : forall c, is_digit c = true <-> digit_in 10 c.
Proof.
  intros c. unfold is_digit, LexNumModel.is_digit, digit_in, digit_of.
  destruct ((48 <=? c) && (c <=? 57)) eqn:E.
  - apply andb_prop in E. split; [intros _|reflexivity]. lia.
  - split; [discriminate|]. destruct ((97 <=? c) && (c <=? 122)) eqn:F; [|destruct ((65 <=? c) && (c <=? 90)) eqn:G]; lia.
Qed.

Lemma digit_base : forall r c, r = 2 \/ r = 8 \/ r = 10 \/ r = 16 ->
  ok_digit r c = true <-> digit_in r c.
Proof.
  intros r c H. unfold ok_digit, is_octal, LexNumModel.is_digit, is_xdigit, digit_in, digit_of.
  destruct H as [->|[->|[->| ->]]]; cbn [Z.eqb Pos.eqb];
  split; intros H; revert H; chars; try discriminate.
Qed.

Lemma digit_value : forall c, is_digit c = true -> digit_of c = c - 48.
Proof. intros c. unfold is_digit, LexNumModel.is_digit, digit_of. intros ->. reflexivity. Qed.

Lemma digits_span : forall r w, r = 2 \/ r = 8 \/ r = 10 \/ r = 16 ->
  digits r w <-> Forall (fun c => ok_digit r c = true) w.
Proof.
  intros r w H. unfold digits. split; intros F; (eapply Forall_impl; [|exact F]); intros a; apply digit_base; exact H.
Qed.

Lemma digits_ten : forall w, digits 10 w <-> Forall (fun c => is_digit c = true) w.
Proof.
  intros w. unfold digits. split; intros F; (eapply Forall_impl; [|exact F]); intros a; apply digit_ten.
Qed.

Lemma number_snoc : forall r a c, number_of r (a ++ [c]) = number_of r a * r + digit_of c.
Proof. intros. unfold number_of, DtoaSpec.value. rewrite map_app, fold_left_app. reflexivity. Qed.

Lemma digit_nonneg : forall c, 0 <= digit_of c.
Proof. intros c. unfold digit_of. chars. Qed.

Lemma number_bound : forall r w, 2 <= r -> digits r w -> 0 <= number_of r w < r ^ Z.of_nat (length w).
Proof.
  intros r w Hr. induction w as [|c w IH] using rev_ind; intros D.
  - cbn. lia.
  - apply Forall_app in D. destruct D as [D1 D2]. inversion D2; subst. unfold digit_in in H1.
    rewrite number_snoc, app_length, Nat2Z.inj_add, Z.pow_add_r by lia. change (Z.of_nat (length [c])) with 1.
    rewrite Z.pow_1_r. specialize (IH D1). pose proof (digit_nonneg c). nia.
Qed.

Lemma dec_value_snoc : forall a c, dec_value (a ++ [c]) = dec_value a * 10 + (c - 48).
Proof. intros. unfold dec_value. rewrite fold_left_app. reflexivity. Qed.

Lemma dec_value_number : forall w, digits 10 w -> dec_value w = number_of 10 w.
Proof.
  induction w as [|c w IH] using rev_ind; intros D; [reflexivity|].
  apply Forall_app in D. destruct D as [D1 D2]. inversion D2; subst.
  rewrite dec_value_snoc, number_snoc, IH, digit_value by (try apply digit_ten; assumption). reflexivity.
Qed.

(** ** Spans *)

Lemma span_spec : forall f s a b, span f s = (a, b) ->
  s = a ++ b /\ Forall (fun c => f c = true) a /\ begins f b = false.
Proof.
  intros f. induction s as [|c s IH]; intros a b E; cbn [span] in E.
  - injection E as <- <-. repeat split. constructor.
  - destruct (f c) eqn:F.
    + destruct (span f s) as [a' b'] eqn:E'. injection E as <- <-.
      destruct (IH _ _ eq_refl) as (-> & A & B). repeat split; [constructor; assumption|exact B].
    + injection E as <- <-. repeat split; [constructor|exact F].
Qed.

Lemma span_app : forall f a b, Forall (fun c => f c = true) a -> begins f b = false ->
  span f (a ++ b) = (a, b).
Proof.
  intros f a b A B. induction A as [|c a H A IH]; cbn [app].
  - destruct b as [|c b]; [reflexivity|]. cbn in B |- *. rewrite B. reflexivity.
  - cbn [span]. rewrite H, IH. reflexivity.
Qed.

Lemma span_all : forall f a, Forall (fun c => f c = true) a -> span f a = (a, []).
Proof. intros. rewrite <- (app_nil_r a) at 1. apply span_app; [assumption|reflexivity]. Qed.

(** ** The exponent and the cut *)

Lemma exp_read : forall x e t, exponent_of x e -> begins is_digit t = false ->
  (x = [] -> begins (fun c => (c =? 101) || (c =? 69)) t = false) ->
  strtod_exp (x ++ t) = (if 0 <=? e then Z.min e 19999 else - Z.min (- e) 19999, t).
Proof.
  intros x e t X T N. inversion X; subst.
  - cbn [app]. specialize (N eq_refl). destruct t as [|c t]; cbn in *; [reflexivity|]. rewrite N. reflexivity.
  - cbn [app]. rewrite <- app_assoc. cbn [strtod_exp].
    replace ((c =? 101) || (c =? 69)) with true by (destruct H as [-> | ->]; reflexivity).
    destruct w as [|d w]; [contradiction|].
    assert (S : span is_digit ((d :: w) ++ t) = (d :: w, t)).
    { apply span_app; [|exact T]. apply digits_ten. assumption. }
    assert (D : is_digit d = true) by (apply digit_ten; inversion H2; assumption).
    pose proof (number_bound 10 (d :: w) ltac:(lia) H2) as NB.
    assert (K : (match (d :: w) ++ t with
                 | d0 :: u => if d0 =? 45 then (true, u) else if d0 =? 43 then (false, u) else (false, (d :: w) ++ t)
                 | [] => (false, (d :: w) ++ t) end) = (false, (d :: w) ++ t)).
    { cbn [app]. assert (d =? 45 = false /\ d =? 43 = false) as [-> ->]; [|reflexivity].
      unfold LexNumModel.is_digit in D. split; apply Z.eqb_neq; lia. }
    inversion H0; subst.
    + cbn [app] in K |- *. rewrite K. cbn [app] in S. rewrite S. rewrite dec_value_number by assumption.
      replace (0 <=? number_of 10 (d :: w)) with true by (symmetry; apply Z.leb_le; lia). reflexivity.
    + cbn [app Z.eqb Pos.eqb]. cbn [app] in S. rewrite S. rewrite dec_value_number by assumption.
      replace (0 <=? number_of 10 (d :: w)) with true by (symmetry; apply Z.leb_le; lia). reflexivity.
    + cbn [app Z.eqb Pos.eqb]. cbn [app] in S. rewrite S. rewrite dec_value_number by assumption.
      destruct (Z.leb_spec 0 (- number_of 10 (d :: w))) as [L|L]; [f_equal; lia|].
      rewrite Z.opp_involutive. reflexivity.
Qed.

Lemma cut_ok : forall neg D k lf e, 0 <= D < 10 ^ k -> 0 <= k <= 19000 -> 0 <= lf <= 19000 ->
  dec_double neg D ((if 0 <=? e then Z.min e 19999 else - Z.min (- e) 19999) - lf) = dec_double neg D (e - lf).
Proof.
  intros neg D k lf e HD Hk Hl. destruct (Z.eq_dec D 0) as [->|N].
  { unfold dec_double. rewrite !Z.mul_0_l, !zero_zero by apply pow10_gt0. reflexivity. }
  destruct (Z.leb_spec 0 e) as [L|L].
  - destruct (Z.le_gt_cases e 19999); [rewrite Z.min_l by lia; reflexivity|].
    rewrite Z.min_r by lia. rewrite !dec_huge by lia. reflexivity.
  - destruct (Z.le_gt_cases (- e) 19999); [rewrite Z.min_l by lia; f_equal; lia|].
    rewrite Z.min_r by lia. rewrite !(dec_tiny neg D _ k) by lia. reflexivity.
Qed.

(** ** A decimal literal *)

Lemma decimal_nonneg : forall w D E, decimal_of w D E -> 0 <= D.
Proof.
  intros w D E H. inversion H; subst.
  - apply number_bound; [lia|assumption].
  - apply number_bound; [lia|]. apply Forall_app. split; assumption.
Qed.

Definition exp_head (c : Z) : bool := (c =? 101) || (c =? 69).

Lemma exp_begins : forall x e t, exponent_of x e -> begins is_digit t = false -> begins is_digit (x ++ t) = false.
Proof.
  intros x e t X T. inversion X; subst; [exact T|]. cbn. destruct H as [-> | ->]; reflexivity.
Qed.

Lemma exp_begins_dot : forall x e t, exponent_of x e -> begins (Z.eqb 46) t = false -> begins (Z.eqb 46) (x ++ t) = false.
Proof.
  intros x e t X T. inversion X; subst; [exact T|]. cbn. destruct H as [-> | ->]; reflexivity.
Qed.

(** What may follow a decimal literal so that nothing more is read. *)
Definition no_more (t : list Z) : Prop :=
  begins (fun c => is_digit c || (c =? 46) || exp_head c) t = false.

Lemma no_more_parts : forall t, no_more t ->
  begins is_digit t = false /\ begins (Z.eqb 46) t = false /\ begins exp_head t = false.
Proof.
  intros [|c t]; [cbn; auto|]. unfold no_more, begins. intros H.
  apply orb_false_elim in H. destruct H as [H ?]. apply orb_false_elim in H. destruct H.
  destruct (Z.eqb_spec c 46); [discriminate|]. destruct (Z.eqb_spec 46 c); [lia|]. auto.
Qed.

(** The reading itself, with the exponent that is used. *)
Lemma body_read : forall neg w D E t, decimal_of w D E -> no_more t -> len w <= 19000 ->
  strtod_body neg (w ++ t) = Some (dec_double neg D E, t).
Proof.
  intros neg w D E t H N L. apply no_more_parts in N. destruct N as (N1 & N2 & N3).
  inversion H; subst.
  - rewrite <- app_assoc. unfold strtod_body.
    rewrite (span_app is_digit i (x ++ t)) by (try apply digits_ten; try (eapply exp_begins; eassumption); assumption).
    assert (M : (match x ++ t with
                 | c :: r => if c =? 46 then let '(f, t0) := span is_digit r in (true, f, t0) else (false, [], x ++ t)
                 | [] => (false, [], x ++ t) end) = (false, [], x ++ t)).
    { pose proof (exp_begins_dot _ _ _ H2 N2) as Q. destruct (x ++ t) as [|c r]; [reflexivity|].
      change ((46 =? c) = false) in Q. rewrite Z.eqb_sym in Q. rewrite Q. reflexivity. }
    rewrite M. rewrite app_nil_r. destruct i as [|c i]; [contradiction|].
    rewrite (exp_read x E t H2 N1) by (intros _; exact N3).
    change (Z.of_nat (length (@nil Z))) with 0. rewrite Z.sub_0_r.
    pose proof (number_bound 10 (c :: i) ltac:(lia) H1) as B.
    rewrite dec_value_number by assumption.
    pose proof (cut_ok neg (number_of 10 (c :: i)) (Z.of_nat (length (c :: i))) 0 E B) as C.
    rewrite !Z.sub_0_r in C. rewrite C; [reflexivity| |lia].
    unfold len in L. rewrite app_length in L. lia.
  - rewrite <- app_assoc. cbn [app]. unfold strtod_body.
    rewrite (span_app is_digit i (46 :: (f ++ x) ++ t)) by (try apply digits_ten; try assumption; reflexivity).
    cbn [Z.eqb Pos.eqb]. rewrite <- app_assoc.
    rewrite (span_app is_digit f (x ++ t)) by (try apply digits_ten; try (eapply exp_begins; eassumption); assumption).
    destruct (i ++ f) as [|c l] eqn:EL; [contradiction|].
    rewrite (exp_read x e t H3 N1) by (intros _; exact N3).
    assert (DL : digits 10 (c :: l)) by (rewrite <- EL; apply Forall_app; split; assumption).
    pose proof (number_bound 10 (c :: l) ltac:(lia) DL) as B.
    rewrite dec_value_number by assumption. unfold len.
    rewrite (cut_ok neg (number_of 10 (c :: l)) (Z.of_nat (length (c :: l))) (Z.of_nat (length f)) e B); [reflexivity| |].
    + rewrite <- EL, app_length. unfold len in L. rewrite app_length in L. cbn [length] in L. rewrite app_length in L. lia.
    + unfold len in L. rewrite app_length in L. cbn [length] in L. rewrite app_length in L. lia.
Qed.

(** A text that begins like a decimal literal has no blanks or signs. *)
Lemma decimal_head : forall w D E, decimal_of w D E ->
  (exists c r, w = c :: r /\ is_digit c = true) \/ (exists c r, w = 46 :: c :: r /\ is_digit c = true).
Proof.
  intros w D E H. inversion H; subst.
  - left. destruct i as [|c i]; [contradiction|]. exists c, (i ++ x). split; [reflexivity|].
    apply digit_ten. inversion H1; assumption.
  - destruct i as [|c i].
    + right. destruct f as [|c f]; [contradiction|]. exists c, (f ++ x). split; [reflexivity|].
      apply digit_ten. inversion H2; assumption.
    + left. exists c, (i ++ 46 :: f ++ x). split; [reflexivity|]. apply digit_ten. inversion H1; assumption.
Qed.

Lemma strtod_decimal : forall w D E t, decimal_of w D E -> no_more t -> len w <= 19000 ->
  strtod (w ++ t) = (dec_double false D E, t).
Proof.
  intros w D E t H N L. unfold strtod.
  assert (S : strtod_sign (snd (span is_c_space (w ++ t))) = Some (false, w ++ t)).
  { destruct (decimal_head _ _ _ H) as [(c & r & -> & C)|(c & r & -> & C)].
    - cbn [app]. unfold span; fold span. replace (is_c_space c) with false.
      2:{ revert C. unfold is_c_space, LexNumModel.is_digit. chars. }
      cbn [snd strtod_sign]. replace ((c =? 45) || (c =? 43)) with false; [reflexivity|].
      revert C. unfold LexNumModel.is_digit. chars.
    - reflexivity. }
  rewrite S, (body_read false w D E t H N L). reflexivity.
Qed.

Lemma strtoi_ten : forall w D E t, decimal_of w D E -> no_more t -> len w <= 19000 ->
  fst (strtoi (w ++ t) 10) = dec_double false D E.
Proof.
  intros w D E t H N L. unfold strtoi. cbn [Z.eqb Pos.eqb orb].
  destruct (match snd (span is_c_space (w ++ t)) with
            | [] => (false, snd (span is_c_space (w ++ t)))
            | c :: r => if c =? 43 then (false, r) else if c =? 45 then (true, r)
                        else (false, snd (span is_c_space (w ++ t))) end) as [g u].
  rewrite (strtod_decimal _ _ _ _ H N L). reflexivity.
Qed.

(** ** Integers in the other bases *)

Lemma fl_small : forall z, 0 <= z <= 2 ^ 53 -> fl z = Some z.
Proof.
  intros z H. unfold fl.
  assert (Z.log2 z <= 53) by (change 53 with (Z.log2 (2 ^ 53)); apply Z.log2_le_mono; lia).
  assert (R : (if Z.log2 z - 52 <=? 0 then z else half_even z (2 ^ (Z.log2 z - 52)) * 2 ^ (Z.log2 z - 52)) = z).
  { destruct (Z.leb_spec (Z.log2 z - 52) 0) as [L|L]; [reflexivity|].
    assert (0 < z).
    { destruct (Z.le_gt_cases z 0) as [Q|Q]; [|exact Q]. rewrite Z.log2_nonpos in L by exact Q. lia. }
    assert (2 ^ 53 <= z) by (apply Z.log2_le_pow2; lia). replace z with (2 ^ 53) by lia. reflexivity. }
  rewrite R. assert (2 ^ 53 < 2 ^ 1024) by (apply Z.pow_lt_mono_r; lia).
  destruct (Z.ltb_spec z (2 ^ 1024)); [reflexivity|lia].
Qed.

Lemma strtoi_digit_ok : forall r c, 2 <= r <= 36 -> r <> 10 -> 
  strtoi_digit r c = if digit_of c <? r then Some (digit_of c) else None.
Proof.
  intros r c Hr N. unfold strtoi_digit, digit_of, LexNumModel.is_digit.
  destruct (Z.leb_spec r 10).
  - destruct ((c <? 48) || (48 + r - 1 <? c)) eqn:E.
    + destruct ((48 <=? c) && (c <=? 57)) eqn:F.
      * destruct (Z.ltb_spec (c - 48) r); [|reflexivity]. lia.
      * destruct ((97 <=? c) && (c <=? 122)) eqn:G; [|destruct ((65 <=? c) && (c <=? 90)) eqn:G'];
        match goal with |- context [?a <? r] => destruct (Z.ltb_spec a r) end; try reflexivity; lia.
    + assert ((48 <=? c) && (c <=? 57) = true) as -> by lia.
      destruct (Z.ltb_spec (c - 48) r); [reflexivity|lia].
  - destruct ((48 <=? c) && (c <=? 57)) eqn:F.
    + destruct (Z.ltb_spec (c - 48) r); [reflexivity|lia].
    + destruct ((97 <=? c) && (c <=? 97 + r - 11)) eqn:G.
      * assert ((97 <=? c) && (c <=? 122) = true) as -> by lia.
        destruct (Z.ltb_spec (c - 87) r); [f_equal; lia|lia].
      * destruct ((65 <=? c) && (c <=? 65 + r - 11)) eqn:G2.
        -- assert ((97 <=? c) && (c <=? 122) = false) as -> by lia.
           assert ((65 <=? c) && (c <=? 90) = true) as -> by lia.
           destruct (Z.ltb_spec (c - 55) r); [f_equal; lia|lia].
        -- destruct ((97 <=? c) && (c <=? 122)) eqn:G3; [|destruct ((65 <=? c) && (c <=? 90)) eqn:G4];
           match goal with |- context [?a <? r] => destruct (Z.ltb_spec a r) end; try reflexivity; lia.
Qed.

Lemma strtoi_loop_ok : forall r, 2 <= r <= 36 -> r <> 10 -> forall w done t,
  digits r done -> digits r w -> begins (fun c => digit_of c <? r) t = false ->
  number_of r (done ++ w) <= 2 ^ 53 ->
  strtoi_loop r (Some (number_of r done)) (w ++ t) = (Some (number_of r (done ++ w)), t).
Proof.
  intros r Hr N w. induction w as [|c w IH]; intros dn t DD DW T B.
  - rewrite app_nil_r. cbn [app]. destruct t as [|c t]; [reflexivity|]. cbn [strtoi_loop].
    rewrite strtoi_digit_ok by assumption. cbn in T. rewrite T. reflexivity.
  - cbn [app strtoi_loop]. rewrite strtoi_digit_ok by assumption.
    inversion DW; subst. unfold digit_in in H1. rewrite (proj2 (Z.ltb_lt _ _) H1).
    assert (Dc : digits r (dn ++ [c])) by (apply Forall_app; split; [assumption|constructor; [assumption|constructor]]).
    assert (M : forall a b, digits r a -> digits r b -> number_of r a <= number_of r (a ++ b)).
    { intros a b Da. induction b as [|y b IHb] using rev_ind; intros Db.
      - rewrite app_nil_r. lia.
      - apply Forall_app in Db. destruct Db as [Db Dy]. specialize (IHb Db).
        rewrite app_assoc, number_snoc. pose proof (digit_nonneg y).
        pose proof (number_bound r (a ++ b) ltac:(lia) ltac:(apply Forall_app; split; assumption)). nia. }
    assert (B1 : number_of r (dn ++ [c]) <= 2 ^ 53).
    { etransitivity; [apply (M (dn ++ [c]) w Dc H2)|]. rewrite <- app_assoc. exact B. }
    pose proof (number_bound r dn ltac:(lia) DD) as B0. pose proof (digit_nonneg c).
    rewrite number_snoc in B1.
    rewrite fl_small by nia. rewrite fl_small by nia. rewrite <- number_snoc.
    rewrite (IH (dn ++ [c]) t Dc H2 T) by (rewrite <- app_assoc; exact B).
    rewrite <- app_assoc. reflexivity.
Qed.
