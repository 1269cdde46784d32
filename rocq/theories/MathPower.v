(** Sign, classification, 32-bit integers, powers. *)
Require Import ZArith List Bool Lia Znumtheory.
From Verif Require Import NumModel NumSpec NumProofs MathModel MathSpec MathProofs MathRound.
From Verif Require LexNumModel.
Import ListNotations.
Local Open Scope Z_scope.

Lemma NF s v : XFin s v <> XNaN. Proof. discriminate. Qed.
Lemma NI s : XInf s <> XNaN. Proof. discriminate. Qed.

(** ** Sign *)
Theorem sign_spec b x : reads b x -> exists r, reads (math_sign b) r /\ sign_of x r.
Proof.
  intro R. unfold math_sign. destruct x as [|s|s v].
  - rewrite (proj2 (reads_is_nan b XNaN R) eq_refl). cbn [orb]. exists XNaN. split; [exact R|reflexivity].
  - rewrite (reads_not_nan _ _ R (NI s)), (c_eq_reads _ _ _ _ R reads_zero (NI s) (NF _ _)),
      (c_lt_reads _ _ _ _ R reads_zero (NI s) (NF _ _)). cbn [xval with_sign orb].
    pose proof big_pos as B. exists (int (if s then -1 else 1)). split; [|reflexivity].
    destruct s; cbn [with_sign].
    + destruct (Z.eqb_spec (- big) 0); [lia|]. destruct (Z.ltb_spec (- big) 0); [|lia]. apply reads_int; reflexivity.
    + destruct (Z.eqb_spec big 0); [lia|]. destruct (Z.ltb_spec big 0); [lia|]. apply reads_int; reflexivity.
  - rewrite (reads_not_nan _ _ R (NF s v)), (c_eq_reads _ _ _ _ R reads_zero (NF _ _) (NF _ _)),
      (c_lt_reads _ _ _ _ R reads_zero (NF _ _) (NF _ _)). cbn [xval with_sign orb].
    pose proof (reads_wf _ _ R) as W. cbn [wf] in W. cbn [sign_of].
    assert (W0 : 0 <= v) by lia. clear W. destruct (Z.eqb_spec v 0) as [->|N].
    + exists (XFin s 0). split; [|reflexivity]. destruct s; exact R.
    + exists (int (if s then -1 else 1)). split; [|reflexivity].
      destruct s; cbn [with_sign].
      * destruct (Z.eqb_spec (- v) 0); [lia|]. destruct (Z.ltb_spec (- v) 0); [|lia]. apply reads_int; reflexivity.
      * destruct (Z.eqb_spec v 0); [lia|]. destruct (Z.ltb_spec v 0); [lia|]. apply reads_int; reflexivity.
Qed.

(** ** Integers *)
Lemma reads_fabs b s v : reads b (XFin s v) -> reads (c_fabs b) (XFin false v).
Proof.
  intro R. inversion R as [s' m e D E| |]; subst. apply r_fin. unfold c_fabs.
  inversion D as [s1 E M HE HM|s1 M HM]; subst.
  - replace (((if s then 1 else 0) * 2 ^ 63 + E * 2 ^ 52 + M) mod 2 ^ 63) with ((if false then 1 else 0) * 2 ^ 63 + E * 2 ^ 52 + M).
    + exact (Dnormal false E M HE HM).
    + apply (Z.mod_unique_pos _ _ (if s then 1 else 0)).
      * change (2 ^ 63) with (2048 * 2 ^ 52). revert HM. generalize (2 ^ 52). intros; nia.
      * ring.
  - replace (((if s then 1 else 0) * 2 ^ 63 + m) mod 2 ^ 63) with ((if false then 1 else 0) * 2 ^ 63 + m).
    + exact (Dsubnormal false m HM).
    + apply (Z.mod_unique_pos _ _ (if s then 1 else 0)).
      * change (2 ^ 63) with (2048 * 2 ^ 52). revert HM. generalize (2 ^ 52). intros; lia.
      * ring.
Qed.

Lemma is_integral_fin b s v : reads b (XFin s v) -> is_integral_number b = (v mod unit =? 0).
Proof.
  intro R. unfold is_integral_number. pose proof (reads_fields _ _ R) as (A & B & _). rewrite A, B. cbn [orb].
  pose proof (reads_fabs b s v R) as RA. set (a := c_fabs b) in *. pose proof unit_pos as U.
  destruct (Z.eqb_spec (v mod unit) 0) as [I|I].
  - unfold c_floor. pose proof (reads_fields _ _ RA) as (_ & _ & _ & V & _). cbn [with_sign] in V. rewrite V.
    rewrite (proj2 (Z.eqb_eq _ _) I), orb_true_r.
    rewrite (c_eq_reads _ _ _ _ RA RA (NF _ _) (NF _ _)). apply Z.eqb_refl.
  - destruct (floor_fraction a false v RA I) as [-> FB]. cbn [with_sign] in *.
    assert (RQ : reads (dbl_of_int (v / unit)) (int (v / unit))) by (apply reads_int; lia).
    rewrite (c_eq_reads _ _ _ _ RQ RA (NF _ _) (NF _ _)). apply Z.eqb_neq. unfold int. cbn [xval].
    pose proof (reads_wf _ _ RA) as W. cbn [wf] in W.
    assert (0 <= v / unit) by (apply Z.div_pos; lia).
    destruct (Z.ltb_spec (v / unit) 0); [lia|]. cbn [with_sign]. rewrite U_eq, Z.abs_eq by assumption.
    pose proof (Z.div_mod v unit ltac:(lia)). lia.
Qed.

Lemma integral_fin s v : integral (XFin s v) <-> v mod unit = 0.
Proof.
  pose proof unit_pos as U. split.
  - intros (t & z & E). injection E as _ ->. rewrite U_eq. apply Z.mod_mul. lia.
  - intro I. apply Z.mod_divide in I; [|lia]. destruct I as [z ->]. exists s, z. reflexivity.
Qed.

Theorem is_integral_spec b x : reads b x -> (is_integral_number b = true <-> integral x).
Proof.
  intro R. destruct x as [|s|s v].
  - unfold is_integral_number. rewrite (proj2 (reads_is_nan b XNaN R) eq_refl). cbn [orb].
    split; [discriminate|intros (s & z & E); discriminate E].
  - unfold is_integral_number. pose proof (reads_fields _ _ R) as (_ & B & _). rewrite B, orb_true_r.
    split; [discriminate|intros (t & z & E); discriminate E].
  - rewrite (is_integral_fin b s v R), Z.eqb_eq. symmetry. apply integral_fin.
Qed.

Theorem is_safe_spec b x : reads b x -> (number_is_safe_integer b = true <-> safe_integral x).
Proof.
  intro R. unfold number_is_safe_integer. destruct x as [|s|s v].
  - rewrite (proj2 (reads_is_nan b XNaN R) eq_refl), orb_true_r.
    split; [discriminate|intros (s & z & E & _); discriminate E].
  - pose proof (reads_fields _ _ R) as (_ & B & _). rewrite B.
    split; [discriminate|intros (t & z & E & _); discriminate E].
  - pose proof (reads_fields _ _ R) as (A & B & S & V & W). rewrite A, B. cbn [orb].
    pose proof unit_pos as U. unfold dtrunc. rewrite V.
    assert (T : Z.quot (with_sign s v) unit = with_sign s (v / unit)).
    { destruct s; cbn [with_sign]; [rewrite Z.quot_opp_l by lia|]; rewrite Z.quot_div_nonneg by lia; reflexivity. }
    rewrite T. pose proof (Z.div_mod v unit ltac:(lia)) as DM. pose proof (Z.mod_pos_bound v unit U) as MB.
    assert (RI : reads (dbl_of_int 9007199254740991) (int 9007199254740991)) by (apply reads_int; reflexivity).
    rewrite (c_le_reads _ _ _ _ (reads_fabs _ _ _ R) RI (NF _ _) (NF _ _)). unfold int. cbn [xval].
    change (9007199254740991 <? 0) with false. change (Z.abs 9007199254740991) with 9007199254740991.
    cbn [with_sign]. rewrite U_eq.
    destruct (Z.eqb_spec (with_sign s (v / unit) * unit) (with_sign s v)) as [E|E]; cbn [negb].
    + assert (I : v = v / unit * unit) by (destruct s; cbn [with_sign] in E; lia).
      rewrite Z.leb_le. split.
      * intro L. exists s, (v / unit). rewrite U_eq, <- I. split; [reflexivity|].
        assert (0 <= v / unit) by (apply Z.div_pos; lia).
        assert (v / unit <= 9007199254740991); [|lia]. revert L I U. generalize unit (v / unit). intros; nia.
      * intros (t & z & Q & L). injection Q as _ Q. rewrite U_eq in Q. revert Q L U. generalize unit. intros; nia.
    + split; [discriminate|]. intros (t & z & Q & L). exfalso. apply E. injection Q as _ Q. rewrite U_eq in Q.
      rewrite Q. rewrite Z.div_mul by lia. destruct s; cbn [with_sign]; ring.
Qed.

Theorem is_finite_spec b x : reads b x -> (number_is_finite b = true <-> exists s v, x = XFin s v).
Proof.
  intro R. unfold number_is_finite. destruct x as [|s|s v].
  - rewrite (proj2 (reads_is_nan b XNaN R) eq_refl), orb_true_r. split; [discriminate|intros (s & v & E); discriminate E].
  - pose proof (reads_fields _ _ R) as (_ & B & _). rewrite B. split; [discriminate|intros (t & v & E); discriminate E].
  - pose proof (reads_fields _ _ R) as (A & B & _). rewrite A, B. split; [intros _; eauto|reflexivity].
Qed.

(** ** 32 bits *)
Lemma land_bit n k : 0 <= k -> (Z.land n (2 ^ k) =? 0) = negb (Z.testbit n k).
Proof.
  intro K. destruct (Z.testbit n k) eqn:T; cbn [negb].
  - apply Z.eqb_neq. intro E. assert (X : Z.testbit (Z.land n (2 ^ k)) k = true) by (rewrite Z.land_spec, T, Z.pow2_bits_true; auto).
    rewrite E, Z.testbit_0_l in X. discriminate.
  - apply Z.eqb_eq. apply Z.bits_inj'. intros i I. rewrite Z.land_spec, Z.testbit_0_l.
    destruct (Z.eq_dec k i) as [<-|N]; [rewrite T; reflexivity|]. rewrite Z.pow2_bits_false by auto. apply andb_false_r.
Qed.

Lemma clz_loop_spec k : forall n, 0 <= n < 2 ^ Z.of_nat k ->
  0 <= clz_loop k n <= Z.of_nat k /\ n < 2 ^ (Z.of_nat k - clz_loop k n) /\
  (clz_loop k n = Z.of_nat k \/ 2 ^ (Z.of_nat k - 1 - clz_loop k n) <= n).
Proof.
  induction k as [|k IH]; intros n H; cbn [clz_loop].
  - split; [lia|]. split; [exact (proj2 H)|]. left. reflexivity.
  - rewrite land_bit by lia. rewrite Nat2Z.inj_succ in H. rewrite Z.pow_succ_r in H by lia.
    assert (P : 0 < 2 ^ Z.of_nat k) by (apply Z.pow_pos_nonneg; lia).
    destruct (Z.testbit n (Z.of_nat k)) eqn:T; cbn [negb].
    + split; [lia|]. split; [rewrite Z.sub_0_r, Nat2Z.inj_succ, Z.pow_succ_r by lia; lia|].
      right. replace (Z.of_nat (S k) - 1 - 0) with (Z.of_nat k) by lia.
      destruct (Z_lt_le_dec n (2 ^ Z.of_nat k)) as [L|L]; [|exact L].
      destruct (Z.eq_dec n 0) as [->|NZ]; [rewrite Z.testbit_0_l in T; discriminate|].
      rewrite (Z.bits_above_log2 n) in T; [discriminate|lia|].
      apply Z.log2_lt_pow2; lia.
    + assert (L : n < 2 ^ Z.of_nat k).
      { destruct (Z_lt_le_dec n (2 ^ Z.of_nat k)) as [L|L]; [exact L|]. exfalso.
        assert (T1 : Z.testbit n (Z.of_nat k) = true); [|congruence].
        replace (Z.of_nat k) with (Z.log2 n); [apply Z.bit_log2; lia|].
        apply Z.log2_unique; [lia|]. rewrite Z.pow_succ_r by lia. lia. }
      destruct (IH n (conj (proj1 H) L)) as (A & B & C).
      split; [lia|]. replace (Z.of_nat (S k) - (1 + clz_loop k n)) with (Z.of_nat k - clz_loop k n) by lia.
      split; [exact B|]. destruct C as [C|C]; [left; lia|right].
      replace (Z.of_nat (S k) - 1 - (1 + clz_loop k n)) with (Z.of_nat k - 1 - clz_loop k n) by lia. exact C.
Qed.

Theorem clz_spec b t : truncated b t -> fits64 t ->
  exists r, math_clz32 b = Some r /\ leading_zeros (t mod 2 ^ 32) r.
Proof.
  intros T F. unfold math_clz32. rewrite (to_uint32_some b t T F). eexists. split; [reflexivity|].
  pose proof (Z.mod_pos_bound t (2 ^ 32) ltac:(reflexivity)) as B.
  destruct (clz_loop_spec 32 (t mod 2 ^ 32) B) as (A & C & D). unfold leading_zeros.
  change (Z.of_nat 32) with 32 in *. change (32 - 1) with 31 in D. tauto.
Qed.

Theorem imul_spec a b t u : truncated a t -> truncated b u -> fits64 t -> fits64 u ->
  exists r, math_imul a b = Some r /\ modular_s 32 (t * u) r.
Proof.
  intros T U FT FU. unfold math_imul. rewrite (to_uint32_some a t T FT), (to_uint32_some b u U FU).
  eexists. split; [reflexivity|]. rewrite <- Z.mul_mod by discriminate.
  assert (M : modular_s 32 (t * u mod 2 ^ 32) (to_signed 32 (t * u mod 2 ^ 32))) by (apply signed_modular; lia).
  destruct M as [R [q E]]. split; [exact R|].
  pose proof (Z.div_mod (t * u) (2 ^ 32) ltac:(discriminate)) as DM. exists (q + t * u / 2 ^ 32). revert DM E. generalize (t * u mod 2 ^ 32) (t * u / 2 ^ 32) (t * u). intros x1 x2 x3 DM E. lia.
Qed.

(** ** Powers *)
Section power.
Variable pow : Z -> Z -> Z.
Variable approx : number -> number -> number -> Prop.
(** What the C library promises (C11 F.10.4.4) and the name for its approximation *)
Definition pow_ok : Prop := forall a b s v t w,
  reads a (XFin s v) -> reads b (XFin t w) -> 0 < v -> 0 < w ->
  exists r, reads (pow a b) r /\
    (s = true -> ~ integral (XFin t w) -> r = XNaN) /\
    (s = false \/ integral (XFin t w) -> approx (XFin s v) (XFin t w) r).

(** A finite exponent too large for int64_t *)
Definition exceeds (e : number) : Prop :=
  match e with XFin s v => ~ (- 2 ^ 63 <= with_sign s (v / unit) < 2 ^ 63) | _ => False end.

Lemma exceeds_integral b s v : reads b (XFin s v) -> exceeds (XFin s v) -> v mod unit = 0.
Proof using.
  clear. intros R E. destruct (Z.eq_dec (v mod unit) 0) as [|N]; [assumption|]. exfalso. apply E.
  pose proof (fraction_small b s v R N) as [B1 B2]. pose proof unit_pos as U.
  assert (v / unit < 2 ^ 52) by (apply Z.div_lt_upper_bound; lia).
  assert (0 <= v / unit) by (apply Z.div_pos; lia). destruct s; cbn [with_sign]; lia.
Qed.

Lemma odd_fin b s v : reads b (XFin s v) ->
  (exceeds (XFin s v) -> is_odd b = None) /\
  (~ exceeds (XFin s v) -> exists o, is_odd b = Some o /\ (o = true <-> odd_integral (XFin s v))).
Proof using.
  clear. intro R. unfold is_odd. rewrite (is_integral_fin b s v R).
  pose proof (reads_fields _ _ R) as (A & B & S & V & W). pose proof unit_pos as U.
  assert (T : dtrunc b = with_sign s (v / unit)).
  { unfold dtrunc. rewrite V. destruct s; cbn [with_sign]; [rewrite Z.quot_opp_l by lia|]; rewrite Z.quot_div_nonneg by lia; reflexivity. }
  unfold cast_int64. rewrite A, B, T. cbn [orb]. split.
  - intro E. rewrite (proj2 (Z.eqb_eq _ _) (exceeds_integral b s v R E)). cbn [exceeds] in E.
    destruct (Z.leb_spec (- 2 ^ 63) (with_sign s (v / unit))), (Z.ltb_spec (with_sign s (v / unit)) (2 ^ 63)); cbn [andb]; try reflexivity.
    exfalso. apply E. split; assumption.
  - intro E. cbn [exceeds] in E. destruct (Z.eqb_spec (v mod unit) 0) as [I|I].
    + destruct (Z.leb_spec (- 2 ^ 63) (with_sign s (v / unit))), (Z.ltb_spec (with_sign s (v / unit)) (2 ^ 63)); cbn [andb];
        try (exfalso; apply E; intro; lia).
      eexists. split; [reflexivity|]. 
      assert (L : Z.land (with_sign s (v / unit)) 1 = (v / unit) mod 2).
      { change 1 with (Z.ones 1) at 1. rewrite Z.land_ones by lia. change (2 ^ 1) with 2.
        destruct s; cbn [with_sign]; [|reflexivity].
        rewrite !Zmod_odd, Z.odd_opp. reflexivity. }
      rewrite L, Zmod_odd. pose proof (Z.div_mod v unit ltac:(lia)) as DM.
      assert (OE : odd_integral (XFin s v) <-> Z.odd (v / unit) = true).
      { split.
        - intros (t & z & Q & O). injection Q as _ Q. rewrite U_eq in Q. rewrite Q, Z.div_mul by lia. exact O.
        - intro O. exists s, (v / unit). split; [|exact O]. f_equal. rewrite U_eq. lia. }
      rewrite OE. destruct (Z.odd (v / unit)); cbn; split; auto.
    + exists false. split; [reflexivity|]. split; [discriminate|]. intros (t & z & Q & _). exfalso. apply I.
      injection Q as _ Q. rewrite Q, U_eq. apply Z.mod_mul. lia.
Qed.

Lemma odd_inf b s : reads b (XInf s) -> is_odd b = Some false /\ ~ odd_integral (XInf s).
Proof using.
  clear. intro R. split; [|intros (t & z & Q & _); discriminate Q]. unfold is_odd.
  assert (E : is_integral_number b = false).
  { destruct (is_integral_number b) eqn:E; [|reflexivity]. apply (is_integral_spec _ _ R) in E. destruct E as (t & z & Q). discriminate. }
  rewrite E. reflexivity.
Qed.

(** The undefined cases: -Infinity or -0 with such an exponent *)
Definition undefined_power (b e : number) : Prop := (b = XInf true \/ b = XFin true 0) /\ exceeds e.

Lemma nonzero_cases b e : reads b e -> e <> XNaN -> xval e <> 0 ->
  (positive e /\ 0 < xval e) \/ (negative e /\ xval e < 0).
Proof using.
  clear. intros R N Z0. pose proof (reads_wf _ _ R) as W. pose proof big_pos as BP. unfold wf, xval, positive, negative in *.
  generalize dependent big. intros B Z0 W BP. clear R.
  destruct e as [|[]|[] v]; cbn [with_sign] in *; try congruence.
  - right. split; [left; reflexivity|lia].
  - left. split; [left; reflexivity|lia].
  - right. split; [right; exists v; split; [lia|reflexivity]|lia].
  - left. split; [right; exists v; split; [lia|reflexivity]|lia].
Qed.

Lemma odd_total n2 e : reads n2 e -> e <> XNaN -> ~ exceeds e ->
  exists o, is_odd n2 = Some o /\ (o = true <-> odd_integral e).
Proof using.
  clear. intros R N X. destruct e as [|s|s v]; [congruence| |].
  - destruct (odd_inf n2 s R) as [O NO]. exists false. split; [exact O|]. split; [discriminate|contradiction].
  - exact (proj2 (odd_fin n2 s v R) X).
Qed.

Theorem power_spec n1 n2 b e : pow_ok -> reads n1 b -> reads n2 e ->
  (undefined_power b e -> exponentiate pow n1 n2 = None) /\
  (~ undefined_power b e ->
   exists r x, exponentiate pow n1 n2 = Some r /\ reads r x /\ power approx b e x).
Proof using.
  intros PO R1 R2. unfold exponentiate.
  destruct (is_nan n2) eqn:N2.
  { apply (reads_is_nan _ _ R2) in N2. subst e. split; [intros [_ []]|]. intros _.
    exists MathModel.nan, XNaN. split; [reflexivity|]. split; [exact reads_nan|apply p_nan]. }
  assert (E2 : e <> XNaN) by (intros ->; rewrite (proj2 (reads_is_nan _ _ R2) eq_refl) in N2; discriminate).
  pose proof (reads_wf _ _ R2) as W2.
  rewrite (c_eq_reads _ _ _ _ R2 reads_zero E2 (NF _ _)). cbn [xval with_sign].
  destruct (Z.eqb_spec (xval e) 0) as [Z2|Z2].
  { pose proof (zero_val e W2 E2 Z2) as EZ. split.
    - intros [_ X]. exfalso. rewrite EZ in X. apply X. rewrite Z.div_0_l by (pose proof unit_pos; lia).
      destruct (sg e); cbn [with_sign]; lia.
    - intros _. exists one, (int 1). split; [reflexivity|]. split; [exact reads_one|]. rewrite EZ. apply p_zero. }
  assert (NZ : forall s, e <> XFin s 0) by (intros s ->; apply Z2; destruct s; reflexivity).
  destruct (is_nan n1) eqn:N1.
  { apply (reads_is_nan _ _ R1) in N1. subst b. split; [intros [[X|X] _]; discriminate X|]. intros _.
    exists MathModel.nan, XNaN. split; [reflexivity|]. split; [exact reads_nan|apply p_base_nan; exact NZ]. }
  assert (E1 : b <> XNaN) by (intros ->; rewrite (proj2 (reads_is_nan _ _ R1) eq_refl) in N1; discriminate).
  pose proof (reads_wf _ _ R1) as W1.
  rewrite (c_lt_reads _ _ _ _ reads_zero R2 (NF _ _) E2), (c_eq_reads _ _ _ _ R1 reads_infinity E1 (NI _)),
    (c_eq_reads _ _ _ _ R1 reads_neg_infinity E1 (NI _)), (c_eq_reads _ _ _ _ R1 reads_zero E1 (NF _ _)),
    (c_eq_reads _ _ _ _ R2 reads_infinity E2 (NI _)), (c_eq_reads _ _ _ _ R2 reads_neg_infinity E2 (NI _)),
    (reads_sign _ _ R1 E1).
  pose proof (nonzero_cases _ _ R2 E2 Z2) as PN.
  pose proof big_pos as BP.
  destruct b as [|s|s v]; [congruence| |].
  - (* infinite base *)
    cbn [xval]. destruct s.
    + cbn [with_sign]. destruct (Z.eqb_spec (- big) big) as [X|_]; [lia|]. rewrite Z.eqb_refl.
      split; [intros [_ X]; destruct e as [| |t w]; [destruct X|destruct X|]; rewrite (proj1 (odd_fin _ _ _ R2) X); reflexivity|].
      intro NU. assert (NX : ~ exceeds e) by (intro X; apply NU; split; auto).
      destruct (odd_total _ _ R2 E2 NX) as (o & -> & O).
      destruct PN as [[P L]|[P L]]; [destruct (Z.ltb_spec 0 (xval e)); [|lia]|destruct (Z.ltb_spec 0 (xval e)); [lia|]];
        destruct o; eexists _, _; (split; [reflexivity|]).
      * split; [exact reads_neg_infinity|]. apply p_ninf_odd; tauto.
      * split; [exact reads_infinity|]. apply p_ninf_even; [exact P|]. rewrite <- O. discriminate.
      * split; [exact reads_neg_zero|]. apply p_ninf_neg_odd; tauto.
      * split; [exact reads_zero|]. apply p_ninf_neg_even; [exact P|]. rewrite <- O. discriminate.
    + cbn [with_sign]. rewrite Z.eqb_refl. split; [intros [[X|X] _]; discriminate X|]. intros _.
      destruct PN as [[P L]|[P L]]; [destruct (Z.ltb_spec 0 (xval e)); [|lia]|destruct (Z.ltb_spec 0 (xval e)); [lia|]];
        eexists _, _; (split; [reflexivity|]).
      * split; [exact reads_infinity|]. apply p_inf_pos; exact P.
      * split; [exact reads_zero|]. apply p_inf_neg; exact P.
  - (* finite base *)
    cbn [xval sg]. cbn [wf] in W1.
    assert (X1 : with_sign s v <> with_sign false big) by (destruct s; cbn [with_sign]; lia).
    assert (X2 : with_sign s v <> with_sign true big) by (destruct s; cbn [with_sign]; lia).
    destruct (Z.eqb_spec (with_sign s v) (with_sign false big)) as [X|_]; [contradiction|].
    destruct (Z.eqb_spec (with_sign s v) (with_sign true big)) as [X|_]; [contradiction|]. cbn [with_sign].
    destruct (Z.eqb_spec (with_sign s v) 0) as [ZV|ZV].
    + assert (v = 0) by (destruct s; cbn [with_sign] in ZV; lia). subst v. destruct s.
      * split; [intros [_ X]; destruct e as [| |t w]; [destruct X|destruct X|]; rewrite (proj1 (odd_fin _ _ _ R2) X); reflexivity|].
        intro NU. assert (NX : ~ exceeds e) by (intro X; apply NU; split; auto).
        destruct (odd_total _ _ R2 E2 NX) as (o & -> & O).
        destruct PN as [[P L]|[P L]]; [destruct (Z.ltb_spec 0 (xval e)); [|lia]|destruct (Z.ltb_spec 0 (xval e)); [lia|]];
          destruct o; eexists _, _; (split; [reflexivity|]).
        -- split; [exact reads_neg_zero|]. apply p_nzero_odd; tauto.
        -- split; [exact reads_zero|]. apply p_nzero_even; [exact P|]. rewrite <- O. discriminate.
        -- split; [exact reads_neg_infinity|]. apply p_nzero_neg_odd; tauto.
        -- split; [exact reads_infinity|]. apply p_nzero_neg_even; [exact P|]. rewrite <- O. discriminate.
      * split; [intros [[X|X] _]; discriminate X|]. intros _.
        destruct PN as [[P L]|[P L]]; [destruct (Z.ltb_spec 0 (xval e)); [|lia]|destruct (Z.ltb_spec 0 (xval e)); [lia|]];
          eexists _, _; (split; [reflexivity|]).
        -- split; [exact reads_zero|]. apply p_zero_pos; exact P.
        -- split; [exact reads_infinity|]. apply p_zero_neg; exact P.
    + assert (VP : 0 < v) by (destruct s; cbn [with_sign] in ZV; lia).
      split; [intros [[X|X] _]; [discriminate X|injection X as _ X; lia]|]. intros _.
      pose proof (reads_fabs _ _ _ R1) as RA.
      rewrite (c_lt_reads _ _ _ _ reads_one RA (NF _ _) (NF _ _)), (c_eq_reads _ _ _ _ RA reads_one (NF _ _) (NF _ _)).
      change (xval (int 1)) with (1 * one_unit). cbn [xval with_sign]. rewrite Z.mul_1_l.
      assert (N0 : XFin s v <> XFin false 0 /\ XFin s v <> XFin true 0) by (split; intro X; injection X as _ X; lia).
      assert (MG : forall c, (v ?= one_unit) = c -> magnitude (XFin s v) c) by (intros c C; exists s, v; auto).
      destruct e as [|t|t w]; [congruence| |].
      * destruct t; cbn [xval with_sign].
        -- destruct (Z.eqb_spec (- big) big) as [X|_]; [lia|]. rewrite Z.eqb_refl.
           destruct (Z.ltb_spec one_unit v) as [L|L]; [|destruct (Z.eqb_spec v one_unit) as [Q|Q]];
             eexists _, _; (split; [reflexivity|]).
           ++ split; [exact reads_zero|]. apply p_big_neg. apply MG. apply Z.compare_gt_iff. exact L.
           ++ split; [exact reads_nan|]. apply p_one. apply MG. apply Z.compare_eq_iff. exact Q.
           ++ split; [exact reads_infinity|]. apply p_small_neg; [|tauto|tauto]. apply MG. apply Z.compare_lt_iff. lia.
        -- rewrite Z.eqb_refl.
           destruct (Z.ltb_spec one_unit v) as [L|L]; [|destruct (Z.eqb_spec v one_unit) as [Q|Q]];
             eexists _, _; (split; [reflexivity|]).
           ++ split; [exact reads_infinity|]. apply p_big. apply MG. apply Z.compare_gt_iff. exact L.
           ++ split; [exact reads_nan|]. apply p_one. apply MG. apply Z.compare_eq_iff. exact Q.
           ++ split; [exact reads_zero|]. apply p_small; [|tauto|tauto]. apply MG. apply Z.compare_lt_iff. lia.
      * cbn [xval wf] in *.
        assert (Y1 : with_sign t w <> big) by (destruct t; cbn [with_sign]; lia).
        assert (Y2 : with_sign t w <> - big) by (destruct t; cbn [with_sign]; lia).
        destruct (Z.eqb_spec (with_sign t w) big) as [X|_]; [contradiction|].
        destruct (Z.eqb_spec (with_sign t w) (- big)) as [X|_]; [contradiction|].
        assert (WP : 0 < w) by (destruct t; cbn [with_sign] in Z2; lia).
        destruct (PO n1 n2 s v t w R1 R2 VP WP) as (r & RR & A & B).
        exists (pow n1 n2), r. split; [reflexivity|]. split; [exact RR|]. apply p_finite; assumption.
Qed.
End power.
