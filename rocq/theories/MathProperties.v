(** * Properties of Math and Number *)
Require Import ZArith List Bool Lia.
From Verif Require Import NumModel NumSpec NumProofs MathModel MathSpec MathProofs MathRound MathPower.
From Verif Require LexNumModel.
Import ListNotations.
Local Open Scope Z_scope.

(** Every pattern of 64 bits is exactly one number. *)
Theorem C115_reads_unique : forall b, 0 <= b < 2 ^ 64 ->
  exists x, reads b x /\ forall y, reads b y -> y = x.
Proof.
  intros b H. destruct (reads_total b H) as [x R]. exists x. split; [exact R|].
  intros y S. exact (reads_fun b y x S R).
Qed.
Print Assumptions C115_reads_unique.

(** ** C115: Math.max and Math.min *)
Theorem C115_max : forall l xs, Forall2 reads l xs -> exists r, reads (math_max l) r /\ greatest xs r.
Proof. exact max_spec. Qed.
Print Assumptions C115_max.

Theorem C115_min : forall l xs, Forall2 reads l xs -> exists r, reads (math_min l) r /\ least xs r.
Proof. exact min_spec. Qed.
Print Assumptions C115_min.

(** The patterns are the expected ones for -0, +0, 3, -Infinity, NaN. *)
Example C115_witness :
  math_max [neg_zero; zero; neg_zero] = zero /\ math_min [zero; neg_zero; zero] = neg_zero /\
  math_max [dbl_of_int 3; infinity] = infinity /\ math_max [] = neg_infinity /\
  math_min [dbl_of_int 3; MathModel.nan; neg_infinity] = MathModel.nan /\
  Forall2 reads [neg_zero; zero] [XFin true 0; XFin false 0].
Proof.
  do 5 (split; [vm_compute; reflexivity|]).
  apply Forall2_cons; [exact reads_neg_zero|]. apply Forall2_cons; [exact reads_zero|apply Forall2_nil].
Qed.

(** ** C116: Math.round, Math.sign, Number.isInteger, isSafeInteger, isFinite, isNaN *)
Theorem C116_round : forall b x, reads b x -> exists r, reads (math_round b) r /\ rounded x r.
Proof. exact round_spec. Qed.
Print Assumptions C116_round.

Theorem C116_sign : forall b x, reads b x -> exists r, reads (math_sign b) r /\ sign_of x r.
Proof. exact sign_spec. Qed.
Print Assumptions C116_sign.

Theorem C116_classes : forall b x, reads b x ->
  (is_integral_number b = true <-> integral x) /\
  (number_is_safe_integer b = true <-> safe_integral x) /\
  (number_is_finite b = true <-> exists s v, x = XFin s v) /\
  (number_is_nan b = true <-> x = XNaN).
Proof.
  intros b x R. split; [exact (is_integral_spec b x R)|]. split; [exact (is_safe_spec b x R)|].
  split; [exact (is_finite_spec b x R)|exact (reads_is_nan b x R)].
Qed.
Print Assumptions C116_classes.

(** 2.5, -2.5, -0.5, the largest double below 0.5, 2^52 + 1/2 does not exist *)
Example C116_witness :
  math_round 0x4004000000000000 = dbl_of_int 3 /\ math_round 0xc004000000000000 = dbl_of_int (-2) /\
  math_round neg_half = neg_zero /\ math_round 0x3fdfffffffffffff = zero /\ math_round half = dbl_of_int 1 /\
  math_round 0x4330000000000001 = 0x4330000000000001 /\ math_sign neg_zero = neg_zero /\
  number_is_safe_integer 0x433fffffffffffff = true /\ number_is_safe_integer 0x4340000000000000 = false.
Proof. vm_compute. repeat split. Qed.

(** ** C117: powers *)

(** Number::exponentiate for all operands, if the C library handles the finite
    ones; undefined behaviour exactly for -Infinity and -0 with a finite
    exponent that does not fit int64_t. *)
Theorem C117_power_partial : forall pow approx n1 n2 b e, pow_ok pow approx -> reads n1 b -> reads n2 e ->
  (undefined_power b e -> exponentiate pow n1 n2 = None) /\
  (~ undefined_power b e ->
   exists r x, exponentiate pow n1 n2 = Some r /\ reads r x /\ power approx b e x).
Proof. exact power_spec. Qed.
Print Assumptions C117_power_partial.

(** (-0) ** 2^63 and (-Infinity) ** 2^63: the standard says +0 and Infinity. *)
Theorem C117_power_refuted : forall pow approx,
  exists n e, reads n e /\
    exponentiate pow neg_zero n = None /\ power approx (XFin true 0) e (XFin false 0) /\
    exponentiate pow neg_infinity n = None /\ power approx (XInf true) e (XInf false).
Proof.
  intros pow approx. exists 0x43e0000000000000, (XFin false (2 ^ 52 * 2 ^ ((0x43e - 1075) + 1074))).
  assert (P : positive (XFin false (2 ^ 52 * 2 ^ ((0x43e - 1075) + 1074)))) by (right; eexists; split; [|reflexivity]; reflexivity).
  assert (O : ~ odd_integral (XFin false (2 ^ 52 * 2 ^ ((0x43e - 1075) + 1074)))).
  { intros (s & z & E & Q). injection E as _ E.
    assert (z = 2 ^ 63).
    { apply (Z.mul_reg_r _ _ one_unit); [discriminate|]. rewrite <- E. reflexivity. }
    subst z. discriminate Q. }
  split; [apply r_fin; apply (Dnormal false 0x43e 0); [lia|split; [discriminate|reflexivity]]|].
  split; [reflexivity|]. split; [apply p_nzero_even; assumption|]. split; [reflexivity|apply p_ninf_even; assumption].
Qed.
Print Assumptions C117_power_refuted.

Example C117_witness : forall pow,
  exponentiate pow neg_zero (dbl_of_int (-3)) = Some neg_infinity /\
  exponentiate pow neg_infinity (dbl_of_int 3) = Some neg_infinity /\
  exponentiate pow (dbl_of_int (-1)) infinity = Some MathModel.nan /\
  exponentiate pow MathModel.nan zero = Some one /\
  exponentiate pow half neg_infinity = Some infinity.
Proof. intro pow. repeat split. Qed.

(** A library that meets pow_ok: NaN for everything, with the approximation that allows it. *)
Example C117_witness_pow : pow_ok (fun _ _ => MathModel.nan) (fun _ _ r => r = XNaN).
Proof. intros a b s v t w _ _ _ _. exists XNaN. split; [exact reads_nan|]. split; intros; reflexivity. Qed.

(** ** C118: Math.clz32 and Math.imul *)
Theorem C118_clz32_partial : forall b t, truncated b t -> fits64 t ->
  exists r, math_clz32 b = Some r /\ leading_zeros (t mod 2 ^ 32) r.
Proof. exact clz_spec. Qed.
Print Assumptions C118_clz32_partial.

Theorem C118_imul_partial : forall a b t u, truncated a t -> truncated b u -> fits64 t -> fits64 u ->
  exists r, math_imul a b = Some r /\ modular_s 32 (t * u) r.
Proof. exact imul_spec. Qed.
Print Assumptions C118_imul_partial.

(** Arguments from 2^63: undefined behaviour (see C35). *)
Theorem C118_large_refuted : exists b m e, double b false m e /\ whole m e = 2 ^ 63 /\
  math_clz32 b = None /\ math_imul b b = None.
Proof.
  exists 0x43e0000000000000, (2 ^ 52 + 0), (0x43e - 1075).
  split; [apply (Dnormal false 0x43e 0); [lia|split; [discriminate|reflexivity]]|].
  split; [vm_compute; reflexivity|]. split; vm_compute; reflexivity.
Qed.
Print Assumptions C118_large_refuted.

Example C118_witness :
  math_clz32 (dbl_of_int 0) = Some 32 /\ math_clz32 (dbl_of_int (-1)) = Some 0 /\ math_clz32 (dbl_of_int 5) = Some 29 /\
  math_imul (dbl_of_int (-5)) (dbl_of_int 12) = Some (-60) /\ math_imul (dbl_of_int 4294967295) (dbl_of_int 5) = Some (-5).
Proof. vm_compute. repeat split. Qed.

(** ** C119: Math.random *)

(** The result is below 1 if rand() does not give RAND_MAX. *)
Theorem C119_random_partial : forall r, 0 <= r < rand_max ->
  match math_random r with
  | LexNumModel.Zero neg => neg = false
  | LexNumModel.Fin neg m e => neg = false /\ 0 < m < 2 ^ 53 /\ e <= -53
  | _ => False
  end.
Proof.
  intros r H. unfold math_random, LexNumModel.to_double.
  set (P := r * 2 ^ 1076). set (L := Z.log2 (P / rand_max)).
  set (e := Z.max (L - 1128) (-1074)). set (m := LexNumModel.half_even P (rand_max * 2 ^ (e + 1076))).
  assert (RM : 0 < rand_max) by reflexivity.
  assert (P0 : 0 <= P) by (apply Z.mul_nonneg_nonneg; [lia|discriminate]).
  assert (Q0 : 0 <= P / rand_max) by (apply Z.div_pos; lia).
  assert (QU : P / rand_max < 2 ^ 1076).
  { apply Z.div_lt_upper_bound; [exact RM|]. unfold P. apply Z.mul_lt_mono_pos_r; [reflexivity|lia]. }
  assert (LU : L < 1076).
  { destruct (Z.eq_dec (P / rand_max) 0) as [E|E]; [unfold L; rewrite E; cbn; lia|].
    apply Z.log2_lt_pow2; lia. }
  assert (EU : - 1074 <= e <= -53) by (unfold e; lia).
  assert (T0 : 0 < 2 ^ (e + 1076)) by (apply Z.pow_pos_nonneg; lia).
  assert (D0 : 0 < rand_max * 2 ^ (e + 1076)) by (apply Z.mul_pos_pos; assumption).
  assert (DQ : P / (rand_max * 2 ^ (e + 1076)) < 2 ^ 53).
  { rewrite <- Z.div_div by lia. apply Z.div_lt_upper_bound; [exact T0|].
    rewrite <- Z.pow_add_r by lia.
    apply Z.lt_le_trans with (2 ^ (L + 1)).
    - destruct (Z.eq_dec (P / rand_max) 0) as [E|E].
      + rewrite E. apply Z.pow_pos_nonneg; [lia|]. unfold L. rewrite E. cbn. lia.
      + apply (Z.log2_spec (P / rand_max)). lia.
    - apply Z.pow_le_mono_r; unfold e; lia. }
  assert (MB : 0 <= m <= P / (rand_max * 2 ^ (e + 1076)) + 1).
  { unfold m, LexNumModel.half_even.
    assert (0 <= P / (rand_max * 2 ^ (e + 1076))) by (apply Z.div_pos; lia).
    destruct (_ ?= _); [destruct (Z.even _)| |]; lia. }
  assert (M1 : e = -53 -> m < 2 ^ 53).
  { intro E. assert (P / (rand_max * 2 ^ (e + 1076)) < 2 ^ 53 - 1); [|lia].
    rewrite E. change (-53 + 1076) with 1023. apply Z.div_lt_upper_bound; [reflexivity|].
    unfold P. change (2 ^ 1076) with (2 ^ 53 * 2 ^ 1023).
    assert (X : 0 < 2 ^ 1023) by reflexivity. revert X. generalize (2 ^ 1023). intros x X.
    assert (r * 2 ^ 53 < rand_max * (2 ^ 53 - 1)).
    { apply Z.le_lt_trans with ((rand_max - 1) * 2 ^ 53); [apply Z.mul_le_mono_nonneg_r; lia|reflexivity]. }
    nia. }
  clearbody m e. clear - MB DQ M1 EU.
  destruct (Z.eqb_spec m (2 ^ 53)) as [E|E].
  - destruct (Z.eqb_spec (2 ^ 52) 0) as [X|_]; [discriminate X|].
    destruct (Z.ltb_spec 971 (e + 1)); [lia|]. split; [reflexivity|]. split; [split; reflexivity|].
    assert (e <> -53); [|lia]. intro X. specialize (M1 X). lia.
  - destruct (Z.eqb_spec m 0) as [->|N0]; [reflexivity|]. destruct (Z.ltb_spec 971 e); [lia|].
    split; [reflexivity|]. split; lia.
Qed.
Print Assumptions C119_random_partial.

(** If it does, the result is 1. *)
Theorem C119_random_refuted : exists r, 0 <= r <= rand_max /\
  math_random r = LexNumModel.Fin false (2 ^ 52) (-52).
Proof. exists rand_max. split; [split; [discriminate|apply Z.le_refl]|]. vm_compute. reflexivity. Qed.
Print Assumptions C119_random_refuted.

Example C119_witness : exists m e, math_random 1073741824 = LexNumModel.Fin false m e.
Proof. vm_compute. eexists _, _. reflexivity. Qed.
