(** Proofs about Math and Number. *)
Require Import ZArith List Bool Lia Znumtheory.
From Verif Require Import NumModel NumSpec NumProofs MathModel MathSpec.
From Verif Require LexNumModel.
Import ListNotations.
Local Open Scope Z_scope.

Definition big : Z := 2 ^ 2098.

Lemma U_eq : one_unit = unit. Proof. reflexivity. Qed.

Definition fields_of (b : Z) (x : number) : Prop :=
  match x with
  | XNaN => is_nan b = true
  | XInf s => is_nan b = false /\ is_inf b = true /\ dsign b = s /\ dval b = with_sign s big
  | XFin s v => is_nan b = false /\ is_inf b = false /\ dsign b = s /\ dval b = with_sign s v /\ 0 <= v < big
  end.

Lemma big_eq : big = 2 ^ 53 * 2 ^ 2045.
Proof. reflexivity. Qed.

Lemma fin_bound m e : 0 <= m < 2 ^ 53 -> - 1074 <= e <= 971 -> 0 <= m * 2 ^ (e + 1074) < big.
Proof.
  intros Hm He. rewrite big_eq.
  assert (2 ^ (e + 1074) <= 2 ^ 2045) by (apply Z.pow_le_mono_r; lia).
  assert (0 < 2 ^ (e + 1074)) by (apply Z.pow_pos_nonneg; lia).
  split; [apply Z.mul_nonneg_nonneg; lia|].
  apply Z.lt_le_trans with (2 ^ 53 * 2 ^ (e + 1074)).
  - apply Z.mul_lt_mono_pos_r; lia.
  - apply Z.mul_le_mono_nonneg_l; [discriminate|assumption].
Qed.

Lemma reads_fields b x : reads b x -> fields_of b x.
Proof.
  intros [s m e D|s I|N]; cbn [fields_of].
  - pose proof (double_fields _ _ _ _ D) as (A & B & C & _).
    pose proof (double_shape _ _ _ _ D) as [Hm He].
    rewrite (dval_double _ _ _ _ D). pose proof (fin_bound m e Hm He). tauto.
  - pose proof (infinite_fields _ _ I) as (A & B & C & _). repeat split; try assumption.
    unfold infinite in I. subst b. destruct s; reflexivity.
  - apply (nan_fields _ N).
Qed.

Lemma reads_fun b x y : reads b x -> reads b y -> x = y.
Proof.
  intros A B. apply reads_fields in A, B. destruct x as [|s|s v], y as [|t|t w]; cbn [fields_of] in A, B.
  - reflexivity.
  - destruct B as (B & _); congruence.
  - destruct B as (B & _); congruence.
  - destruct A as (A & _); congruence.
  - destruct A as (_ & _ & A & _), B as (_ & _ & B & _). congruence.
  - destruct A as (_ & A & _), B as (_ & B & _). congruence.
  - destruct A as (A & _); congruence.
  - destruct A as (_ & A & _), B as (_ & B & _). congruence.
  - destruct A as (_ & _ & A & V & _), B as (_ & _ & B & W & _).
    assert (E : s = t) by congruence. clear A B. subst t. rewrite V in W. f_equal. clear - W; unfold with_sign in W; destruct s; lia.
Qed.

Lemma reads_total b : 0 <= b < 2 ^ 64 -> exists x, reads b x.
Proof.
  intro H. destruct (classify b H) as [(s & m & e & D)|[(s & I)|N]].
  - exists (XFin s (m * 2 ^ (e + 1074))). apply r_fin. exact D.
  - exists (XInf s). apply r_inf. exact I.
  - exists XNaN. apply r_nan. exact N.
Qed.

Lemma reads_int z : Z.abs z < 2 ^ 53 -> reads (dbl_of_int z) (int z).
Proof.
  intro H. unfold int. destruct (Z.eq_dec z 0) as [->|NZ].
  - change (reads 0 (XFin false (0 * 2 ^ (- 1074 + 1074)))). apply r_fin.
    apply (Dsubnormal false 0). split; [discriminate|reflexivity].
  - destruct (dbl_of_int_double z H NZ) as (e & D & E).
    assert (0 <= Z.log2 (Z.abs z)) by apply Z.log2_nonneg.
    assert (Z.log2 (Z.abs z) < 53) by (apply Z.log2_lt_pow2; lia).
    replace (Z.abs z * one_unit) with (Z.abs z * 2 ^ (52 - Z.log2 (Z.abs z)) * 2 ^ (e + 1074)).
    + apply r_fin. exact D.
    + subst e. rewrite <- Z.mul_assoc, <- Z.pow_add_r by lia. f_equal. unfold one_unit. f_equal. lia.
Qed.

Lemma reads_zero : reads zero (XFin false 0).
Proof. exact (reads_int 0 eq_refl). Qed.
Lemma reads_neg_zero : reads neg_zero (XFin true 0).
Proof.
  change (reads neg_zero (XFin true (0 * 2 ^ (- 1074 + 1074)))). apply r_fin.
  apply (Dsubnormal true 0). split; [discriminate|reflexivity].
Qed.
Lemma reads_infinity : reads infinity (XInf false).
Proof. apply r_inf. reflexivity. Qed.
Lemma reads_neg_infinity : reads neg_infinity (XInf true).
Proof. apply r_inf. reflexivity. Qed.
Lemma reads_nan : reads MathModel.nan XNaN.
Proof. apply r_nan. exists false, (2 ^ 51). split; [split; reflexivity|reflexivity]. Qed.
Lemma reads_one : reads one (int 1).
Proof. exact (reads_int 1 eq_refl). Qed.

(** ** Comparisons *)
Definition wf (x : number) : Prop := match x with XFin _ v => 0 <= v < big | _ => True end.
Definition xval (x : number) : Z :=
  match x with XNaN => 0 | XInf s => with_sign s big | XFin s v => with_sign s v end.
Definition sg (x : number) : bool := match x with XNaN => false | XInf s => s | XFin s _ => s end.

Lemma reads_wf b x : reads b x -> wf x.
Proof. intro H. apply reads_fields in H. destruct x; cbn in *; tauto. Qed.
Lemma reads_is_nan b x : reads b x -> is_nan b = true <-> x = XNaN.
Proof.
  intro H. apply reads_fields in H. destruct x as [|s|s v]; cbn [fields_of] in H; [tauto| |];
    destruct H as [H _]; rewrite H; split; discriminate.
Qed.
Lemma reads_not_nan b x : reads b x -> x <> XNaN -> is_nan b = false.
Proof. intros H N. destruct (is_nan b) eqn:E; [|reflexivity]. apply (reads_is_nan b x H) in E. contradiction. Qed.
Lemma reads_dval b x : reads b x -> x <> XNaN -> dval b = xval x.
Proof. intros H N. apply reads_fields in H. destruct x; cbn in *; tauto. Qed.
Lemma reads_sign b x : reads b x -> x <> XNaN -> dsign b = sg x.
Proof. intros H N. apply reads_fields in H. destruct x; cbn in *; tauto. Qed.

Lemma ordered_reads a b x y : reads a x -> reads b y -> x <> XNaN -> y <> XNaN -> ordered a b = true.
Proof. intros A B NA NB. unfold ordered. rewrite (reads_not_nan a x A NA), (reads_not_nan b y B NB). reflexivity. Qed.

Lemma c_lt_reads a b x y : reads a x -> reads b y -> x <> XNaN -> y <> XNaN -> c_lt a b = (xval x <? xval y).
Proof.
  intros A B NA NB. unfold c_lt. rewrite (ordered_reads a b x y A B NA NB).
  rewrite (reads_dval a x A NA), (reads_dval b y B NB). reflexivity.
Qed.
Lemma c_le_reads a b x y : reads a x -> reads b y -> x <> XNaN -> y <> XNaN -> c_le a b = (xval x <=? xval y).
Proof.
  intros A B NA NB. unfold c_le. rewrite (ordered_reads a b x y A B NA NB).
  rewrite (reads_dval a x A NA), (reads_dval b y B NB). reflexivity.
Qed.
Lemma c_eq_reads a b x y : reads a x -> reads b y -> x <> XNaN -> y <> XNaN -> c_eq a b = (xval x =? xval y).
Proof.
  intros A B NA NB. unfold c_eq. rewrite (ordered_reads a b x y A B NA NB).
  rewrite (reads_dval a x A NA), (reads_dval b y B NB). reflexivity.
Qed.

Lemma big_pos : 0 < big. Proof. reflexivity. Qed.

Lemma below_iff x y : wf x -> wf y -> x <> XNaN -> y <> XNaN ->
  (below x y <-> xval x < xval y \/ (xval x = xval y /\ (sg x = true \/ sg y = false))).
Proof.
  intros WX WY NX NY. pose proof big_pos as BP. unfold wf, xval in *. generalize dependent big. intros B WX WY BP.
  destruct x as [|[]|[] v], y as [|[]|[] w]; try congruence; cbn [below with_sign sg] in *; intuition (try congruence; try lia).
Qed.

Lemma below_trans x y z : wf x -> wf y -> wf z -> below x y -> below y z -> below x z.
Proof.
  intros WX WY WZ A B.
  assert (NX : x <> XNaN) by (intros ->; destruct A).
  assert (NY : y <> XNaN) by (intros ->; destruct B).
  assert (NZ : z <> XNaN) by (intros ->; destruct y as [|[]|]; destruct B).
  apply below_iff in A; try assumption. apply below_iff in B; try assumption. apply below_iff; try assumption.
  destruct (sg x), (sg y), (sg z); intuition (try congruence; try lia).
Qed.

Lemma below_refl x : wf x -> x <> XNaN -> below x x.
Proof.
  intros W N. apply below_iff; try assumption. right. split; [reflexivity|]. destruct (sg x); auto.
Qed.

Lemma zero_val x : wf x -> x <> XNaN -> xval x = 0 -> x = XFin (sg x) 0.
Proof.
  intros W N V. pose proof big_pos as BP. unfold wf, xval in *. generalize dependent big. intros B W V BP.
  destruct x as [|[]|[] v]; cbn [with_sign sg] in *; try congruence; try (exfalso; lia); f_equal; lia.
Qed.

Lemma sign_val x : wf x -> (sg x = true -> xval x <= 0) /\ (sg x = false -> 0 <= xval x).
Proof.
  intros W. pose proof big_pos as BP. unfold wf, xval in *. generalize dependent big. intros B W BP.
  destruct x as [|[]|[] v]; cbn [with_sign sg] in *; split; intro; try discriminate; lia.
Qed.

(** ** Maximum and minimum *)
Lemma max_step m n xm xn : reads m xm -> reads n xn -> xm <> XNaN -> xn <> XNaN ->
  exists x, reads (if c_eq n zero && c_eq m zero && negb (dsign n) && dsign m then zero
                   else if c_lt m n then n else m) x /\
    (x = xm \/ x = xn) /\ below xm x /\ below xn x.
Proof.
  intros RM RN NM NN. pose proof (reads_wf _ _ RM) as WM. pose proof (reads_wf _ _ RN) as WN.
  pose proof (sign_val xm WM) as [SM1 SM2]. pose proof (sign_val xn WN) as [SN1 SN2].
  assert (NZ : XFin false 0 <> XNaN) by discriminate.
  rewrite (c_eq_reads n zero xn _ RN reads_zero NN NZ), (c_eq_reads m zero xm _ RM reads_zero NM NZ).
  rewrite (c_lt_reads m n xm xn RM RN NM NN), (reads_sign n xn RN NN), (reads_sign m xm RM NM).
  cbn [xval with_sign].
  destruct (Z.eqb_spec (xval xn) 0) as [En|En], (Z.eqb_spec (xval xm) 0) as [Em|Em], (sg xn) eqn:Sn, (sg xm) eqn:Sm;
    cbn [andb negb];
    try (destruct (Z.ltb_spec (xval xm) (xval xn)) as [L|L];
         [exists xn|exists xm]; (split; [assumption|]; split; [auto|];
           split; apply below_iff; try assumption; rewrite ?Sn, ?Sm; intuition (try congruence; lia))).
  pose proof (zero_val xn WN NN En) as Zn. rewrite Sn in Zn.
  exists xn. split; [rewrite Zn; exact reads_zero|]. split; [auto|].
  split; apply below_iff; try assumption; rewrite ?Sn, ?Sm; intuition (try congruence; lia).
Qed.

Lemma max_loop_spec l : forall m xm xs, reads m xm -> xm <> XNaN -> Forall2 reads l xs ->
  exists r, reads (max_loop m l) r /\
    ((In XNaN xs /\ r = XNaN) \/ (~ In XNaN xs /\ In r (xm :: xs) /\ below xm r /\ Forall (fun x => below x r) xs)).
Proof.
  induction l as [|n l IH]; intros m xm xs RM NM F; inversion F as [|? xn ? xs' RN F']; subst; cbn [max_loop].
  - exists xm. split; [exact RM|]. right. split; [intros []|]. split; [left; reflexivity|].
    split; [apply below_refl; [exact (reads_wf _ _ RM)|exact NM]|apply Forall_nil].
  - destruct (is_nan n) eqn:E.
    + apply (reads_is_nan n xn RN) in E. subst xn. exists XNaN. split; [exact reads_nan|].
      left. split; [left; reflexivity|reflexivity].
    + assert (NN : xn <> XNaN) by (intros ->; destruct (reads_is_nan n XNaN RN) as [_ X]; rewrite X in E; [discriminate|reflexivity]).
      destruct (max_step m n xm xn RM RN NM NN) as (x & RX & OX & BM & BN).
      assert (NX : x <> XNaN) by (destruct OX; subst; assumption).
      destruct (IH _ x xs' RX NX F') as (r & RR & C). exists r. split; [exact RR|].
      destruct C as [[I ->]|(NI & I & BX & FA)].
      * left. split; [right; exact I|reflexivity].
      * right. pose proof (reads_wf _ _ RM). pose proof (reads_wf _ _ RN). pose proof (reads_wf _ _ RX). pose proof (reads_wf _ _ RR).
        split; [intros [X|X]; [exact (NN X)|exact (NI X)]|].
        split; [destruct I as [<-|I]; [destruct OX as [->| ->]; [left|right; left]; reflexivity|right; right; exact I]|].
        split; [exact (below_trans xm x r ltac:(assumption) ltac:(assumption) ltac:(assumption) BM BX)|].
        apply Forall_cons; [exact (below_trans xn x r ltac:(assumption) ltac:(assumption) ltac:(assumption) BN BX)|exact FA].
Qed.

Theorem max_spec l xs : Forall2 reads l xs -> exists r, reads (math_max l) r /\ greatest xs r.
Proof.
  intro F. destruct (max_loop_spec l neg_infinity (XInf true) xs reads_neg_infinity ltac:(discriminate) F) as (r & R & C).
  exists r. split; [exact R|]. destruct C as [C|(N & I & _ & A)]; [left; exact C|right; auto].
Qed.

Lemma min_step m n xm xn : reads m xm -> reads n xn -> xm <> XNaN -> xn <> XNaN ->
  exists x, reads (if c_eq n zero && c_eq m zero && dsign n && negb (dsign m) then neg_zero
                   else if c_lt n m then n else m) x /\
    (x = xm \/ x = xn) /\ below x xm /\ below x xn.
Proof.
  intros RM RN NM NN. pose proof (reads_wf _ _ RM) as WM. pose proof (reads_wf _ _ RN) as WN.
  pose proof (sign_val xm WM) as [SM1 SM2]. pose proof (sign_val xn WN) as [SN1 SN2].
  assert (NZ : XFin false 0 <> XNaN) by discriminate.
  rewrite (c_eq_reads n zero xn _ RN reads_zero NN NZ), (c_eq_reads m zero xm _ RM reads_zero NM NZ).
  rewrite (c_lt_reads n m xn xm RN RM NN NM), (reads_sign n xn RN NN), (reads_sign m xm RM NM).
  cbn [xval with_sign].
  destruct (Z.eqb_spec (xval xn) 0) as [En|En], (Z.eqb_spec (xval xm) 0) as [Em|Em], (sg xn) eqn:Sn, (sg xm) eqn:Sm;
    cbn [andb negb];
    try (destruct (Z.ltb_spec (xval xn) (xval xm)) as [L|L];
         [exists xn|exists xm]; (split; [assumption|]; split; [auto|];
           split; apply below_iff; try assumption; rewrite ?Sn, ?Sm; intuition (try congruence; lia))).
  pose proof (zero_val xn WN NN En) as Zn. rewrite Sn in Zn.
  exists xn. split; [rewrite Zn; exact reads_neg_zero|]. split; [auto|].
  split; apply below_iff; try assumption; rewrite ?Sn, ?Sm; intuition (try congruence; lia).
Qed.

Lemma min_loop_spec l : forall m xm xs, reads m xm -> xm <> XNaN -> Forall2 reads l xs ->
  exists r, reads (min_loop m l) r /\
    ((In XNaN xs /\ r = XNaN) \/ (~ In XNaN xs /\ In r (xm :: xs) /\ below r xm /\ Forall (fun x => below r x) xs)).
Proof.
  induction l as [|n l IH]; intros m xm xs RM NM F; inversion F as [|? xn ? xs' RN F']; subst; cbn [min_loop].
  - exists xm. split; [exact RM|]. right. split; [intros []|]. split; [left; reflexivity|].
    split; [apply below_refl; [exact (reads_wf _ _ RM)|exact NM]|apply Forall_nil].
  - destruct (is_nan n) eqn:E.
    + apply (reads_is_nan n xn RN) in E. subst xn. exists XNaN. split; [exact reads_nan|].
      left. split; [left; reflexivity|reflexivity].
    + assert (NN : xn <> XNaN) by (intros ->; destruct (reads_is_nan n XNaN RN) as [_ X]; rewrite X in E; [discriminate|reflexivity]).
      destruct (min_step m n xm xn RM RN NM NN) as (x & RX & OX & BM & BN).
      assert (NX : x <> XNaN) by (destruct OX; subst; assumption).
      destruct (IH _ x xs' RX NX F') as (r & RR & C). exists r. split; [exact RR|].
      destruct C as [[I ->]|(NI & I & BX & FA)].
      * left. split; [right; exact I|reflexivity].
      * right. pose proof (reads_wf _ _ RM). pose proof (reads_wf _ _ RN). pose proof (reads_wf _ _ RX). pose proof (reads_wf _ _ RR).
        split; [intros [X|X]; [exact (NN X)|exact (NI X)]|].
        split; [destruct I as [<-|I]; [destruct OX as [->| ->]; [left|right; left]; reflexivity|right; right; exact I]|].
        split; [exact (below_trans r x xm ltac:(assumption) ltac:(assumption) ltac:(assumption) BX BM)|].
        apply Forall_cons; [exact (below_trans r x xn ltac:(assumption) ltac:(assumption) ltac:(assumption) BX BN)|exact FA].
Qed.

Theorem min_spec l xs : Forall2 reads l xs -> exists r, reads (math_min l) r /\ least xs r.
Proof.
  intro F. destruct (min_loop_spec l infinity (XInf false) xs reads_infinity ltac:(discriminate) F) as (r & R & C).
  exists r. split; [exact R|]. destruct C as [C|(N & I & _ & A)]; [left; exact C|right; auto].
Qed.
