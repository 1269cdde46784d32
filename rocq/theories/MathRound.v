(** Rounding, classification, 32-bit integers, powers. *)
Require Import ZArith List Bool Lia Znumtheory.
From Verif Require Import NumModel NumSpec NumProofs MathModel MathSpec MathProofs.
From Verif Require LexNumModel.
Import ListNotations.
Local Open Scope Z_scope.

(** ** Rounding of exact values *)
Lemma rnd_exact k q : 0 <= k -> 0 <= q * 2 ^ k < 2 ^ (53 + k) -> rnd (q * 2 ^ k) = q * 2 ^ k.
Proof.
  intros K H. unfold rnd. rewrite Z.abs_eq by lia.
  set (a := q * 2 ^ k) in *. destruct (Z.leb_spec (Z.log2 a - 52) 0) as [L|L]; [reflexivity|].
  assert (A : 0 < a).
  { destruct (Z.eq_dec a 0) as [E|]; [|lia]. rewrite E in L. cbn in L. lia. }
  assert (LT : Z.log2 a < 53 + k) by (apply Z.log2_lt_pow2; lia).
  set (e := Z.log2 a - 52) in *.
  assert (M : a = q * 2 ^ (k - e) * 2 ^ e).
  { unfold a. rewrite <- Z.mul_assoc, <- Z.pow_add_r by lia. do 2 f_equal. lia. }
  assert (P : 0 < 2 ^ e) by (apply Z.pow_pos_nonneg; lia).
  rewrite (Z.sgn_pos a A), Z.mul_1_l. unfold LexNumModel.half_even.
  assert (D : a / 2 ^ e = q * 2 ^ (k - e)) by (rewrite M; apply Z.div_mul; lia).
  assert (R : a mod 2 ^ e = 0) by (rewrite M; apply Z.mod_mul; lia).
  rewrite D, R, Z.mul_0_r. destruct (Z.compare_spec 0 (2 ^ e)); try lia.
Qed.

Lemma unit_split e : - 1074 <= e <= 0 -> unit = 2 ^ (- e) * 2 ^ (e + 1074).
Proof. intro H. rewrite <- Z.pow_add_r by lia. unfold unit. f_equal. lia. Qed.

(** A finite double that is not an integer *)
Lemma fraction_shape b s v : reads b (XFin s v) -> v mod unit <> 0 ->
  exists m e, v = m * 2 ^ (e + 1074) /\ 0 <= m < 2 ^ 53 /\ - 1074 <= e < 0.
Proof.
  intros R N. inversion R as [s' m e D E1| |]; subst. exists m, e.
  pose proof (double_shape _ _ _ _ D) as [Hm He]. split; [reflexivity|]. split; [exact Hm|].
  split; [lia|]. destruct (Z_lt_le_dec e 0); [assumption|]. exfalso. apply N.
  replace (2 ^ (e + 1074)) with (2 ^ e * unit) by (unfold unit; rewrite <- Z.pow_add_r by lia; reflexivity).
  rewrite Z.mul_assoc. apply Z.mod_mul. pose proof unit_pos. lia.
Qed.

Lemma fraction_small b s v : reads b (XFin s v) -> v mod unit <> 0 -> 0 < v < 2 ^ 52 * unit.
Proof.
  intros R N. destruct (fraction_shape b s v R N) as (m & e & E & Hm & He).
  assert (V : v <> 0) by (intros Z0; apply N; rewrite Z0; apply Z.mod_0_l; pose proof unit_pos; lia).
  assert (P : 0 < 2 ^ (e + 1074)) by (apply Z.pow_pos_nonneg; lia).
  split; [assert (0 <= m * 2 ^ (e + 1074)) by (apply Z.mul_nonneg_nonneg; lia); lia|].
  rewrite E. apply Z.lt_le_trans with (2 ^ 53 * 2 ^ (e + 1074)); [apply Z.mul_lt_mono_pos_r; lia|].
  replace (2 ^ 52 * unit) with (2 ^ 53 * 2 ^ 1073) by reflexivity.
  apply Z.mul_le_mono_nonneg_l; [discriminate|]. apply Z.pow_le_mono_r; lia.
Qed.

Lemma signed_mod s v : v mod unit <> 0 <-> with_sign s v mod unit <> 0.
Proof.
  pose proof unit_pos as U. destruct s; cbn [with_sign]; [|tauto].
  rewrite !Z.mod_divide by lia. rewrite Z.divide_opp_r. tauto.
Qed.

(** The floor of a double that is not an integer *)
Lemma floor_fraction b s v : reads b (XFin s v) -> v mod unit <> 0 ->
  c_floor b = dbl_of_int (with_sign s v / unit) /\ Z.abs (with_sign s v / unit) <= 2 ^ 52.
Proof.
  intros R N. pose proof (reads_fields _ _ R) as (NN & NI & S & V & _). unfold c_floor.
  rewrite NN, NI, V. cbn [orb].
  destruct (Z.eqb_spec (with_sign s v mod unit) 0) as [E|_]; [apply (signed_mod s) in N; contradiction|].
  split; [reflexivity|]. pose proof (fraction_small b s v R N) as B. pose proof unit_pos as U.
  revert B U. generalize unit. intros u B U.
  assert (L : - 2 ^ 52 <= with_sign s v / u).
  { apply Z.div_le_lower_bound; [exact U|]. destruct s; cbn [with_sign]; lia. }
  assert (H : with_sign s v / u < 2 ^ 52).
  { apply Z.div_lt_upper_bound; [exact U|]. destruct s; cbn [with_sign]; lia. }
  lia.
Qed.

Lemma reads_half : reads half (XFin false (2 ^ 1073)).
Proof.
  assert (E : 2 ^ 1073 = 2 ^ 52 * 2 ^ ((1022 - 1075) + 1074)) by reflexivity. rewrite E.
  apply r_fin. apply (Dnormal false 1022 0); [lia|split; [discriminate|reflexivity]].
Qed.
Lemma reads_neg_half : reads neg_half (XFin true (2 ^ 1073)).
Proof.
  assert (E : 2 ^ 1073 = 2 ^ 52 * 2 ^ ((1022 - 1075) + 1074)) by reflexivity. rewrite E.
  apply r_fin. apply (Dnormal true 1022 0); [lia|split; [discriminate|reflexivity]].
Qed.
Lemma unit_half : unit = 2 * 2 ^ 1073.
Proof. reflexivity. Qed.

Lemma int_sign z s : (z < 0 -> s = true) -> (0 <= z -> s = false) -> int z = XFin s (Z.abs z * one_unit).
Proof. intros A B. unfold int. destruct (Z.ltb_spec z 0); [rewrite A by lia|rewrite B by lia]; reflexivity. Qed.

Lemma round_arith u h s v : u = 2 * h -> 0 < h -> 0 < v ->
  (s = false -> v < h -> (2 * with_sign s v + u) / (2 * u) = 0) /\
  (s = true -> v <= h -> (2 * with_sign s v + u) / (2 * u) = 0) /\
  ((if s then h < v else h <= v) -> with_sign s v mod u < h ->
     (2 * with_sign s v + u) / (2 * u) = with_sign s v / u /\
     if s then with_sign s v / u < 0 else 0 <= with_sign s v / u) /\
  ((if s then h < v else h <= v) -> h <= with_sign s v mod u ->
     (2 * with_sign s v + u) / (2 * u) = with_sign s v / u + 1 /\
     if s then with_sign s v / u + 1 < 0 else 0 <= with_sign s v / u + 1).
Proof.
  intros E H V. assert (U : 0 < u) by lia.
  pose proof (Z.div_mod (with_sign s v) u ltac:(lia)) as DM.
  pose proof (Z.mod_pos_bound (with_sign s v) u U) as MB.
  set (w := with_sign s v) in *. set (q := w / u) in *. set (f := w mod u) in *.
  assert (K : forall k g, 2 * w + u = k * (2 * u) + g -> 0 <= g < 2 * u -> (2 * w + u) / (2 * u) = k).
  { intros k g Q G. symmetry. apply (Z.div_unique_pos _ _ k g); [exact G|]. rewrite Q. ring. }
  split; [intros -> L; apply (K 0 (2 * w + u)); unfold w; cbn [with_sign]; lia|].
  split; [intros -> L; apply (K 0 (2 * w + u)); unfold w; cbn [with_sign]; lia|].
  split; intros L F.
  - split; [apply (K q (2 * f + u)); [rewrite DM at 1; ring|lia]|].
    destruct s; unfold w in DM; cbn [with_sign] in DM; nia.
  - split; [apply (K (q + 1) (2 * f - u)); [rewrite DM at 1; ring|lia]|].
    destruct s; unfold w in DM; cbn [with_sign] in DM.
    + assert (q < -1); [|lia]. nia.
    + nia.
Qed.

Theorem round_spec b x : reads b x -> exists r, reads (math_round b) r /\ rounded x r.
Proof.
  intro R. unfold math_round. destruct x as [|s|s v].
  - exists XNaN. rewrite (proj2 (reads_is_nan b XNaN R) eq_refl). rewrite andb_false_r. cbn [andb].
    split; [exact R|reflexivity].
  - pose proof (reads_fields _ _ R) as (NN & NI & _). rewrite NI. cbn [negb andb]. exists (XInf s). split; [exact R|reflexivity].
  - pose proof (reads_fields _ _ R) as (NN & NI & S & V & B). rewrite NI, NN. cbn [negb andb].
    assert (NF : forall t w, XFin t w <> XNaN) by discriminate.
    pose proof unit_pos as U.
    destruct (Z.eq_dec (v mod unit) 0) as [I|I].
    + (* an integer *)
      assert (F : c_floor b = b).
      { unfold c_floor. destruct (Z.eqb_spec (dval b mod unit) 0) as [_|E]; [rewrite orb_true_r; reflexivity|].
        exfalso. apply E. rewrite V. destruct s; cbn [with_sign]; [|exact I].
        apply Z.mod_divide in I; [|lia]. apply Z.mod_divide; [lia|]. apply Z.divide_opp_r. exact I. }
      rewrite F, (c_eq_reads b b _ _ R R (NF _ _) (NF _ _)), Z.eqb_refl. cbn [negb].
      exists (XFin s v). split; [exact R|]. cbn [rounded]. rewrite U_eq. f_equal.
      apply Z.mod_divide in I; [|lia]. destruct I as [z I].
      assert (W : with_sign s v = with_sign s z * unit) by (rewrite I; destruct s; cbn [with_sign]; ring).
      assert (Z0 : 0 <= z) by nia.
      rewrite W. replace (2 * (with_sign s z * unit) + unit) with (unit + with_sign s z * (2 * unit)) by ring.
      rewrite Z.div_add by lia. rewrite (Z.div_small unit (2 * unit)) by lia.
      rewrite I. f_equal. destruct s; cbn [with_sign]; lia.
    + destruct (floor_fraction b s v R I) as [F FB].
      pose proof (fraction_small b s v R I) as SM.
      rewrite F. set (q := with_sign s v / unit) in *.
      assert (RQ : reads (dbl_of_int q) (int q)) by (apply reads_int; lia).
      pose proof (reads_dval _ _ RQ (NF _ _)) as VQ.
      assert (XQ : xval (int q) = q * unit).
      { unfold int. cbn [xval]. rewrite U_eq. destruct (Z.ltb_spec q 0); cbn [with_sign];
        [rewrite Z.abs_neq by lia|rewrite Z.abs_eq by lia]; ring. }
      rewrite (c_eq_reads _ b _ _ RQ R (NF _ _) (NF _ _)), XQ. cbn [xval].
      pose proof (Z.div_mod (with_sign s v) unit ltac:(lia)) as DM. fold q in DM.
      pose proof (Z.mod_pos_bound (with_sign s v) unit U) as MB.
      assert (MN : with_sign s v mod unit <> 0) by (exact (proj1 (signed_mod s v) I)).
      set (f := with_sign s v mod unit) in *.
      destruct (Z.eqb_spec (q * unit) (with_sign s v)) as [E|_]; [lia|]. cbn [negb].
      rewrite S, (c_lt_reads b half _ _ R reads_half (NF _ _) (NF _ _)), (c_le_reads zero b _ _ reads_zero R (NF _ _) (NF _ _)),
        (c_le_reads b zero _ _ R reads_zero (NF _ _) (NF _ _)), (c_le_reads neg_half b _ _ reads_neg_half R (NF _ _) (NF _ _)).
      cbn [xval with_sign]. cbn [rounded]. rewrite U_eq.
      assert (RF : 2 ^ 1073 <= v -> rnd f = f).
      { intro LV. destruct (fraction_shape b s v R I) as (m & e & E & Hm & He).
        assert (EB : -53 <= e).
        { destruct (Z_lt_le_dec e (-53)); [|assumption]. exfalso.
          assert (v < 2 ^ 1073); [|lia]. rewrite E.
          assert (P : 0 < 2 ^ (e + 1074)) by (apply Z.pow_pos_nonneg; lia).
          apply Z.lt_le_trans with (2 ^ 53 * 2 ^ (e + 1074)); [apply Z.mul_lt_mono_pos_r; lia|].
          rewrite <- Z.pow_add_r by lia. apply Z.pow_le_mono_r; lia. }
        assert (FE : f = (with_sign s m mod 2 ^ (- e)) * 2 ^ (e + 1074)).
        { unfold f. rewrite (unit_split e) by lia. rewrite E.
          replace (with_sign s (m * 2 ^ (e + 1074))) with (with_sign s m * 2 ^ (e + 1074)) by (destruct s; cbn [with_sign]; ring).
          apply Z.mul_mod_distr_r; apply Z.pow_nonzero; lia. }
        rewrite FE. apply rnd_exact; [lia|]. rewrite <- FE. split; [lia|].
        apply Z.lt_le_trans with unit; [lia|]. unfold unit. apply Z.pow_le_mono_r; lia. }
      assert (DH : dval half = 2 ^ 1073) by (exact (reads_dval _ _ reads_half (NF _ _))).
      rewrite DH, VQ, XQ. replace (dval b - q * unit) with f by (rewrite V; lia).
      rewrite (Z.div_mul q unit) by lia.
      assert (HP : 0 < 2 ^ 1073) by reflexivity.
      pose proof (round_arith unit (2 ^ 1073) s v unit_half HP ltac:(lia)) as (A1 & A2 & A3 & A4).
      fold q in A3, A4. fold f in A3, A4.
      destruct s; cbn [with_sign negb andb] in *.
      * destruct (Z.leb_spec (- v) 0) as [_|X]; [|lia]. cbn [andb].
        destruct (Z.leb_spec (- 2 ^ 1073) (- v)) as [L|L].
        { exists (XFin true 0). split; [exact reads_neg_zero|]. rewrite A2 by (lia || reflexivity). reflexivity. }
        rewrite RF by lia. destruct (Z.ltb_spec f (2 ^ 1073)) as [LF|LF].
        -- exists (int q). split; [apply reads_int; lia|]. destruct A3 as [-> A3]; [lia|exact LF|].
           rewrite (int_sign q true) by (auto; lia). rewrite U_eq. reflexivity.
        -- exists (int (q + 1)). split; [apply reads_int; lia|]. destruct A4 as [-> A4]; [lia|exact LF|].
           rewrite (int_sign (q + 1) true) by (auto; lia). rewrite U_eq. reflexivity.
      * destruct (Z.leb_spec 0 v) as [_|X]; [|lia]. rewrite andb_true_r.
        destruct (Z.ltb_spec v (2 ^ 1073)) as [L|L].
        { exists (XFin false 0). split; [exact reads_zero|]. rewrite A1 by (lia || reflexivity). reflexivity. }
        rewrite RF by lia. destruct (Z.ltb_spec f (2 ^ 1073)) as [LF|LF].
        -- exists (int q). split; [apply reads_int; lia|]. destruct A3 as [-> A3]; [lia|exact LF|].
           rewrite (int_sign q false) by (auto; lia). rewrite U_eq. reflexivity.
        -- exists (int (q + 1)). split; [apply reads_int; lia|]. destruct A4 as [-> A4]; [lia|exact LF|].
           rewrite (int_sign (q + 1) false) by (auto; lia). rewrite U_eq. reflexivity.
Qed.
