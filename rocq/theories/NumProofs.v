From Coq Require Import ZArith List Bool Lia.
Import ListNotations.
From Verif Require Import StrModel NumModel NumSpec.
Local Open Scope Z_scope.

Ltac p52 :=
  change (2 ^ 52) with 4503599627370496 in *;
  change (2 ^ 63) with 9223372036854775808 in *;
  change (2 ^ 11) with 2048 in *;
  change (2 ^ 64) with 18446744073709551616 in *.

Lemma unit_pos : 0 < unit.
Proof. apply Z.pow_pos_nonneg; lia. Qed.

(** field extraction *)
Lemma fields : forall S E M, 0 <= S <= 1 -> 0 <= E < 2048 -> 0 <= M < 2 ^ 52 ->
  dsign (S * 2 ^ 63 + E * 2 ^ 52 + M) = (S =? 1) /\
  dexp (S * 2 ^ 63 + E * 2 ^ 52 + M) = E /\ dman (S * 2 ^ 63 + E * 2 ^ 52 + M) = M.
Proof.
  intros S E M HS HE HM. unfold dsign, dexp, dman. p52.
  replace (S * 9223372036854775808 + E * 4503599627370496 + M)
    with (M + (S * 2048 + E) * 4503599627370496) by lia.
  rewrite Z.div_add, Z.mod_add by lia. rewrite Z.div_small by lia. rewrite (Z.mod_small M) by lia.
  split; [|split; [|reflexivity]].
  - destruct (Z.eqb_spec S 1); [apply Z.leb_le | apply Z.leb_gt]; lia.
  - replace (0 + (S * 2048 + E)) with (E + S * 2048) by lia. rewrite Z.mod_add by lia. apply Z.mod_small; lia.
Qed.

Lemma split_bits : forall b, 0 <= b < 2 ^ 64 ->
  exists S E M, 0 <= S <= 1 /\ 0 <= E < 2048 /\ 0 <= M < 2 ^ 52 /\ b = S * 2 ^ 63 + E * 2 ^ 52 + M.
Proof.
  intros b H. p52. exists (b / 9223372036854775808), (b / 4503599627370496 mod 2048), (b mod 4503599627370496).
  assert (b / 9223372036854775808 = b / 4503599627370496 / 2048) by (rewrite Z.div_div by lia; reflexivity).
  pose proof (Z.div_mod b 4503599627370496 ltac:(lia)).
  pose proof (Z.div_mod (b / 4503599627370496) 2048 ltac:(lia)).
  pose proof (Z.mod_pos_bound b 4503599627370496 ltac:(lia)).
  pose proof (Z.mod_pos_bound (b / 4503599627370496) 2048 ltac:(lia)).
  split; [|lia].
  split; [apply Z.div_pos; lia|].
  assert (b / 9223372036854775808 < 2) by (apply Z.div_lt_upper_bound; lia). lia.
Qed.

Definition zs (s : bool) : Z := if s then 1 else 0.

Lemma classify : forall b, 0 <= b < 2 ^ 64 ->
  (exists s m e, double b s m e) \/ (exists s, infinite b s) \/ nan b.
Proof.
  intros b H. destruct (split_bits b H) as (S & E & M & HS & HE & HM & ->).
  assert (HS' : exists s : bool, S = if s then 1 else 0).
  { destruct (Z.eq_dec S 0); [exists false | exists true]; lia. }
  destruct HS' as [s ->].
  destruct (Z.eq_dec E 0) as [-> | E0].
  - left. exists s, M, (-1074). rewrite Z.mul_0_l, Z.add_0_r. constructor; assumption.
  - destruct (Z.eq_dec E 2047) as [-> | E1].
    + right. destruct (Z.eq_dec M 0) as [-> | M0].
      * left. exists s. unfold infinite. lia.
      * right. exists s, M. split; [lia | reflexivity].
    + left. exists s, (2 ^ 52 + M), (E - 1075). constructor; lia.
Qed.

Lemma zs_bound : forall s, 0 <= (if s : bool then 1 else 0) <= 1.
Proof. destruct s; lia. Qed.

Lemma double_range : forall b s m e, double b s m e -> 0 <= b < 2 ^ 64.
Proof. intros b s m e H. destruct H as [s E M HE HM | s M HM]; destruct s; p52; lia. Qed.

Lemma double_shape : forall b s m e, double b s m e -> 0 <= m < 2 ^ 53 /\ - 1074 <= e <= 971.
Proof. intros b s m e H. destruct H; p52; change (2 ^ 53) with 9007199254740992; lia. Qed.

Lemma double_fields : forall b s m e, double b s m e ->
  dsign b = s /\ is_nan b = false /\ is_inf b = false /\ dmag b = m * 2 ^ (e + 1074) /\
  (is_zero b = true <-> m = 0).
Proof.
  intros b s m e H. unfold is_nan, is_inf, dmag, is_zero. destruct H as [s E M HE HM | s M HM].
  - destruct (fields (if s then 1 else 0) E M (zs_bound s) ltac:(lia) HM) as (A & B & C).
    rewrite A, B, C. split; [destruct s; reflexivity|].
    destruct (Z.eqb_spec E 2047); [lia|]. destruct (Z.eqb_spec E 0); [lia|].
    cbn [andb]. repeat split; try discriminate.
    + f_equal. f_equal. lia.
    + intros. exfalso. p52. lia.
  - destruct (fields (if s then 1 else 0) 0 M (zs_bound s) ltac:(lia) HM) as (A & B & C).
    rewrite Z.mul_0_l, Z.add_0_r in A, B, C.
    rewrite A, B, C. split; [destruct s; reflexivity|].
    cbn [andb Z.eqb]. change (- 1074 + 1074) with 0. rewrite Z.pow_0_r, Z.mul_1_r.
    rewrite Z.eqb_eq. repeat split; auto.
Qed.

Lemma infinite_fields : forall b s, infinite b s ->
  dsign b = s /\ is_nan b = false /\ is_inf b = true /\ is_zero b = false.
Proof.
  intros b s ->. unfold is_nan, is_inf, is_zero.
  destruct (fields (if s then 1 else 0) 2047 0 (zs_bound s) ltac:(lia) ltac:(p52; lia)) as (A & B & C).
  rewrite Z.add_0_r in A, B, C. rewrite A, B, C. destruct s; repeat split; reflexivity.
Qed.

Lemma nan_fields : forall b, nan b -> is_nan b = true /\ is_inf b = false /\ is_zero b = false.
Proof.
  intros b (s & M & HM & ->). unfold is_nan, is_inf, is_zero.
  destruct (fields (if s then 1 else 0) 2047 M (zs_bound s) ltac:(lia) ltac:(lia)) as (A & B & C).
  rewrite B, C. destruct (Z.eqb_spec M 0); [lia|]. repeat split; reflexivity.
Qed.

Lemma mag_div : forall m e, 0 <= m -> - 1074 <= e -> m * 2 ^ (e + 1074) / unit = whole m e.
Proof.
  intros m e Hm He. unfold whole, unit. destruct (Z.leb_spec 0 e).
  - rewrite Z.pow_add_r by lia. rewrite Z.mul_assoc. apply Z.div_mul. apply Z.pow_nonzero; lia.
  - replace 1074 with (- e + (e + 1074)) at 2 by lia. rewrite (Z.pow_add_r 2 (- e)) by lia.
    apply Z.div_mul_cancel_r; apply Z.pow_nonzero; lia.
Qed.

Lemma dval_double : forall b s m e, double b s m e -> dval b = with_sign s (m * 2 ^ (e + 1074)).
Proof.
  intros b s m e H. destruct (double_fields _ _ _ _ H) as (A & _ & _ & B & _).
  unfold dval. rewrite A, B. destruct s; reflexivity.
Qed.

Lemma whole_nonneg : forall m e, 0 <= m -> 0 <= whole m e.
Proof.
  intros. unfold whole. destruct (0 <=? e).
  - apply Z.mul_nonneg_nonneg; [lia | apply Z.pow_nonneg; lia].
  - destruct (Z.leb_spec e 0).
    + apply Z.div_pos; [lia | apply Z.pow_pos_nonneg; lia].
    + rewrite (Z.pow_neg_r 2 (- e)) by lia. rewrite Zdiv_0_r. lia.
Qed.

Lemma dtrunc_double : forall b s m e, double b s m e -> dtrunc b = with_sign s (whole m e).
Proof.
  intros b s m e H. destruct (double_shape _ _ _ _ H) as [Hm He].
  unfold dtrunc. rewrite (dval_double _ _ _ _ H). pose proof unit_pos.
  assert (0 <= m * 2 ^ (e + 1074)) by (apply Z.mul_nonneg_nonneg; [lia | apply Z.pow_nonneg; lia]).
  assert (Q : Z.quot (m * 2 ^ (e + 1074)) unit = whole m e).
  { rewrite Z.quot_div_nonneg by lia. apply mag_div; lia. }
  destruct s; cbn [with_sign]; [rewrite Z.quot_opp_l by lia|]; rewrite Q; reflexivity.
Qed.

Lemma signed_modular : forall k t, 0 < k -> modular_s k t (to_signed k t).
Proof.
  intros k t Hk. unfold modular_s, to_signed.
  assert (P : 2 ^ k = 2 * 2 ^ (k - 1)) by (rewrite <- Z.pow_succ_r by lia; f_equal; lia).
  assert (0 < 2 ^ (k - 1)) by (apply Z.pow_pos_nonneg; lia).
  pose proof (Z.mod_pos_bound (t + 2 ^ (k - 1)) (2 ^ k) ltac:(lia)).
  split; [lia|]. exists ((t + 2 ^ (k - 1)) / 2 ^ k).
  pose proof (Z.div_mod (t + 2 ^ (k - 1)) (2 ^ k) ltac:(lia)). lia.
Qed.

Lemma unsigned_modular : forall k t, 0 <= k -> modular_u k t (to_unsigned k t).
Proof.
  intros k t Hk. unfold modular_u, to_unsigned.
  assert (0 < 2 ^ k) by (apply Z.pow_pos_nonneg; lia).
  split; [apply Z.mod_pos_bound; lia|]. exists (t / 2 ^ k).
  pose proof (Z.div_mod t (2 ^ k) ltac:(lia)). lia.
Qed.

(** uniqueness of the residues *)
Lemma modular_u_fun : forall k t r1 r2, modular_u k t r1 -> modular_u k t r2 -> r1 = r2.
Proof.
  intros k t r1 r2 [H1 [q1 E1]] [H2 [q2 E2]].
  rewrite <- (Z.mod_small r1 (2 ^ k)), <- (Z.mod_small r2 (2 ^ k)) by lia.
  rewrite <- (Z.mod_add r1 q1), <- (Z.mod_add r2 q2) by lia. rewrite <- E1, <- E2. reflexivity.
Qed.

Lemma modular_s_fun : forall k t r1 r2, 0 < k -> modular_s k t r1 -> modular_s k t r2 -> r1 = r2.
Proof.
  intros k t r1 r2 Hk [H1 [q1 E1]] [H2 [q2 E2]].
  assert (P : 2 ^ k = 2 * 2 ^ (k - 1)) by (rewrite <- Z.pow_succ_r by lia; f_equal; lia).
  assert (A : modular_u k (t + 2 ^ (k - 1)) (r1 + 2 ^ (k - 1))).
  { split; [lia|]. exists q1. lia. }
  assert (B : modular_u k (t + 2 ^ (k - 1)) (r2 + 2 ^ (k - 1))).
  { split; [lia|]. exists q2. lia. }
  pose proof (modular_u_fun _ _ _ _ A B). lia.
Qed.

Lemma modular_u_eq : forall k t r, 0 <= k -> modular_u k t r -> r = t mod 2 ^ k.
Proof. intros k t r Hk H. apply (modular_u_fun k t); [exact H | apply unsigned_modular; exact Hk]. Qed.

Lemma modular_s_eq : forall k t r, 0 < k -> modular_s k t r -> r = to_signed k t.
Proof. intros k t r Hk H. apply (modular_s_fun k t); [exact Hk | exact H | apply signed_modular; exact Hk]. Qed.

Definition fits64 (t : Z) : Prop := - 2 ^ 63 <= t < 2 ^ 63.

Lemma truncated_fun : forall b t1 t2, truncated b t1 -> truncated b t2 -> t1 = t2.
Proof.
  intros b t1 t2 H1 H2.
  assert (K : forall b, (forall s m e, double b s m e -> is_nan b = false /\ is_inf b = false) /\
                        (forall s, infinite b s -> is_nan b = false /\ is_inf b = true) /\
                        (nan b -> is_nan b = true)).
  { intro c. split; [|split].
    - intros s m e D. destruct (double_fields _ _ _ _ D) as (_ & A & B & _). auto.
    - intros s D. destruct (infinite_fields _ _ D) as (_ & A & B & _). auto.
    - intros D. destruct (nan_fields _ D) as (A & _). auto. }
  destruct (K b) as (K1 & K2 & K3).
  destruct H1 as [s m e D | s D | D]; destruct H2 as [s' m' e' D' | s' D' | D']; try reflexivity.
  - rewrite <- (dtrunc_double _ _ _ _ D), <- (dtrunc_double _ _ _ _ D'). reflexivity.
  - destruct (K1 _ _ _ D), (K2 _ D'). congruence.
  - destruct (K1 _ _ _ D). rewrite (K3 D') in *. discriminate.
  - destruct (K1 _ _ _ D'), (K2 _ D). congruence.
  - destruct (K1 _ _ _ D'). rewrite (K3 D) in *. discriminate.
Qed.

Lemma truncated_total : forall b, 0 <= b < 2 ^ 64 -> exists t, truncated b t.
Proof.
  intros b H. destruct (classify b H) as [(s & m & e & D) | [[s D] | D]].
  - exists (with_sign s (whole m e)). apply (Tfinite b s m e D).
  - exists 0. apply (Tinf b s D).
  - exists 0. apply (Tnan b D).
Qed.

(** the shared conversion: defined exactly when the truncated number fits
    int64_t, and then computed from it *)
Lemma to_int_with_spec : forall conv b t, conv 0 = 0 -> truncated b t ->
  to_int_with conv b = if (- 2 ^ 63 <=? t) && (t <? 2 ^ 63) then Some (conv t) else None.
Proof.
  intros conv b t C0 H. unfold to_int_with, cast_int64. destruct H as [s m e D | s D | D].
  - destruct (double_fields _ _ _ _ D) as (_ & A & B & _ & Z0).
    rewrite A, B. cbn [orb]. rewrite (dtrunc_double _ _ _ _ D).
    destruct (is_zero b) eqn:Ez.
    + destruct Z0 as [Z0 _]. specialize (Z0 eq_refl). subst m.
      assert (whole 0 e = 0) as -> by (unfold whole; destruct (0 <=? e); [reflexivity | apply Zdiv_0_l]).
      replace (with_sign s 0) with 0 by (destruct s; reflexivity). rewrite C0. reflexivity.
    + destruct ((- 2 ^ 63 <=? with_sign s (whole m e)) && (with_sign s (whole m e) <? 2 ^ 63)); reflexivity.
  - destruct (infinite_fields _ _ D) as (_ & A & B & _). rewrite A, B. cbn [orb]. rewrite C0. reflexivity.
  - destruct (nan_fields _ D) as (A & _). rewrite A. cbn [orb]. rewrite C0. reflexivity.
Qed.

Lemma fits_if : forall (A : Type) t (x : A) o,
  (if (- 2 ^ 63 <=? t) && (t <? 2 ^ 63) then Some x else None) = o ->
  (fits64 t -> o = Some x) /\ (~ fits64 t -> o = None).
Proof.
  intros A t x o <-. unfold fits64.
  destruct (Z.leb_spec (- 2 ^ 63) t); destruct (Z.ltb_spec t (2 ^ 63)); cbn [andb];
    split; intros; try reflexivity; exfalso; p52; lia.
Qed.

Lemma to_int_signed : forall k b t, 0 < k -> truncated b t ->
  (fits64 t -> exists r, to_int_with (to_signed k) b = Some r /\ modular_s k t r) /\
  (~ fits64 t -> to_int_with (to_signed k) b = None).
Proof.
  intros k b t Hk T.
  assert (C0 : to_signed k 0 = 0).
  { unfold to_signed. assert (0 < 2 ^ (k - 1)) by (apply Z.pow_pos_nonneg; lia).
    assert (P : 2 ^ k = 2 * 2 ^ (k - 1)) by (rewrite <- Z.pow_succ_r by lia; f_equal; lia).
    rewrite Z.mod_small by lia. lia. }
  destruct (fits_if _ _ _ _ (eq_sym (to_int_with_spec _ b t C0 T))) as [A B].
  split; [|exact B]. intro F. exists (to_signed k t). split; [apply A; exact F | apply signed_modular; exact Hk].
Qed.

Lemma to_int_unsigned : forall k b t, 0 <= k -> truncated b t ->
  (fits64 t -> exists r, to_int_with (to_unsigned k) b = Some r /\ modular_u k t r) /\
  (~ fits64 t -> to_int_with (to_unsigned k) b = None).
Proof.
  intros k b t Hk T.
  assert (C0 : to_unsigned k 0 = 0) by (apply Zmod_0_l).
  destruct (fits_if _ _ _ _ (eq_sym (to_int_with_spec _ b t C0 T))) as [A B].
  split; [|exact B]. intro F. exists (to_unsigned k t). split; [apply A; exact F | apply unsigned_modular; exact Hk].
Qed.

(** ** ToUint8Clamp *)
Lemma clamp_spec : forall b s m e, double b s m e ->
  let v := with_sign s (m * 2 ^ (e + 1074)) in
  (v <= 0 -> rjs_to_uint8_clamp b = 0) /\
  (255 * 2 ^ 1074 <= v -> rjs_to_uint8_clamp b = 255) /\
  (0 <= v <= 255 * 2 ^ 1074 -> 0 <= rjs_to_uint8_clamp b <= 255 /\
     nearest_even (if s then - m else m) e (rjs_to_uint8_clamp b)).
Proof.
  intros b s m e D v.
  destruct (double_fields _ _ _ _ D) as (_ & A & B & _ & _).
  assert (V : dval b = v) by (apply dval_double; exact D).
  unfold rjs_to_uint8_clamp. rewrite A, B, V.
  assert (NV : (if s then - m else m) * 2 ^ (e + 1074) = v) by (unfold v; destruct s; cbn [with_sign]; ring).
  unfold nearest_even. rewrite NV. fold unit. pose proof unit_pos as U. clearbody v. clear NV V A B D.
  pose proof (Z.div_mod v unit ltac:(lia)) as DM. pose proof (Z.mod_pos_bound v unit U) as MB.
  set (f := v / unit) in *. set (r := v mod unit) in *.
  assert (Hf0 : 0 <= v -> 0 <= f) by (intro; apply Z.div_pos; lia).
  clearbody f r. generalize dependent unit. intros u U DM MB. rewrite (Z.mul_comm u f) in DM.
  destruct (Z.ltb_spec v 0).
  { repeat split; intros; lia. }
  specialize (Hf0 ltac:(lia)).
  destruct (Z.ltb_spec (255 * u) v).
  { repeat split; intros; try lia. }
  assert (F255 : f <= 255) by nia.
  destruct (Z.ltb_spec ((2 * f + 1) * u) (2 * v)).
  { assert (f < 255) by nia.
    assert (v - (f + 1) * u = r - u) as E by lia. rewrite E.
    repeat split; intros; try lia; try nia. }
  destruct (Z.ltb_spec (2 * v) ((2 * f + 1) * u)).
  { assert (v - f * u = r) as E by lia. rewrite E.
    repeat split; intros; try lia; try nia. }
  assert (2 * r = u) by nia. assert (f < 255) by nia.
  destruct (Z.odd f) eqn:O.
  - assert (v - (f + 1) * u = r - u) as E by lia. rewrite E.
    repeat split; intros; try lia; try nia.
    rewrite Z.even_add. rewrite <- Z.negb_odd, O. reflexivity.
  - assert (v - f * u = r) as E by lia. rewrite E.
    repeat split; intros; try lia; try nia.
    rewrite <- Z.negb_odd, O. reflexivity.
Qed.

Lemma clamp_special : forall b,
  (infinite b true -> rjs_to_uint8_clamp b = 0) /\ (infinite b false -> rjs_to_uint8_clamp b = 255) /\
  (nan b -> rjs_to_uint8_clamp b = 0).
Proof.
  intro b. unfold rjs_to_uint8_clamp. repeat split; intro D.
  - destruct (infinite_fields _ _ D) as (A & B & C & _). rewrite A, B, C. reflexivity.
  - destruct (infinite_fields _ _ D) as (A & B & C & _). rewrite A, B, C. reflexivity.
  - destruct (nan_fields _ D) as (A & _). rewrite A. reflexivity.
Qed.

(** ** ToIntegerOrInfinity, ToIndex *)
Lemma to_integer_spec : forall b,
  (forall s m e, double b s m e -> to_integer_or_infinity b = Fin (with_sign s (whole m e))) /\
  (infinite b false -> to_integer_or_infinity b = PInf) /\
  (infinite b true -> to_integer_or_infinity b = NInf) /\
  (nan b -> to_integer_or_infinity b = Fin 0).
Proof.
  intro b. unfold to_integer_or_infinity. split; [|repeat split]; intros.
  - destruct (double_fields _ _ _ _ H) as (_ & A & B & _). rewrite A, B.
    rewrite (dval_double _ _ _ _ H). destruct (double_shape _ _ _ _ H) as [Hm He].
    assert (0 <= m * 2 ^ (e + 1074)) by (apply Z.mul_nonneg_nonneg; [lia | apply Z.pow_nonneg; lia]).
    pose proof (mag_div m e ltac:(lia) ltac:(lia)) as Q.
    destruct s; cbn [with_sign].
    + destruct (Z.ltb_spec (- (m * 2 ^ (e + 1074))) 0).
      * rewrite Z.opp_involutive, Q. reflexivity.
      * assert (Z0 : m * 2 ^ (e + 1074) = 0) by lia. rewrite Z0 in *. rewrite Zdiv_0_l in Q. rewrite <- Q. reflexivity.
    + destruct (Z.ltb_spec (m * 2 ^ (e + 1074)) 0); [lia|]. rewrite Q. reflexivity.
  - destruct (infinite_fields _ _ H) as (A & B & C & _). rewrite A, B, C. reflexivity.
  - destruct (infinite_fields _ _ H) as (A & B & C & _). rewrite A, B, C. reflexivity.
  - destruct (nan_fields _ H) as (A & _). rewrite A. reflexivity.
Qed.

Lemma to_index_spec : forall b, 0 <= b < 2 ^ 64 -> forall i,
  rjs_to_index (Some b) = Some i <->
  truncated b i /\ 0 <= i <= 2 ^ 53 - 1 /\ (forall s, ~ infinite b s).
Proof.
  intros b Hb i. unfold rjs_to_index.
  destruct (to_integer_spec b) as (T1 & T2 & T3 & T4).
  assert (L : forall z, (if z =? to_length (Fin z) then Some (to_length (Fin z)) else None) = Some i <->
                        z = i /\ 0 <= i <= 2 ^ 53 - 1).
  { intro z. unfold to_length. assert (0 < 2 ^ 53) by reflexivity.
    destruct (Z.leb_spec z 0).
    - destruct (Z.eqb_spec z 0); split; intro H1; [injection H1 as <-; lia | f_equal; lia | discriminate | lia].
    - destruct (Z.eqb_spec z (Z.min z (2 ^ 53 - 1))); split; intro H1;
        [injection H1 as <-; lia | f_equal; lia | discriminate | lia]. }
  destruct (classify b Hb) as [(s & m & e & D) | [[s D] | D]].
  - rewrite (T1 _ _ _ D). cbv zeta. rewrite L. split.
    + intros [<- R]. split; [apply (Tfinite b s m e D)|]. split; [exact R|].
      intros s' I. destruct (double_fields _ _ _ _ D) as (_ & _ & B & _).
      destruct (infinite_fields _ _ I) as (_ & _ & B' & _). congruence.
    + intros (T & R & _). split; [|exact R]. apply (truncated_fun b); [apply (Tfinite b s m e D) | exact T].
  - destruct s; [rewrite (T3 D) | rewrite (T2 D)]; cbv zeta iota; split; intro H; try discriminate;
      exfalso; destruct H as (_ & _ & N); eapply N; exact D.
  - rewrite (T4 D). cbv zeta. rewrite L. split.
    + intros [<- R]. split; [apply (Tnan b D)|]. split; [exact R|].
      intros s' I. destruct (nan_fields _ D) as (A & _). destruct (infinite_fields _ _ I) as (_ & A' & _). congruence.
    + intros (T & R & _). split; [|exact R]. apply (truncated_fun b); [apply (Tnan b D) | exact T].
Qed.

(** ** Integers as doubles *)
Lemma dbl_of_int_double : forall z, Z.abs z < 2 ^ 53 -> z <> 0 ->
  exists e, double (dbl_of_int z) (z <? 0) (Z.abs z * 2 ^ (52 - Z.log2 (Z.abs z))) e /\
            e = Z.log2 (Z.abs z) - 52.
Proof.
  intros z H Hz. unfold dbl_of_int. destruct (Z.eqb_spec z 0); [lia|].
  set (a := Z.abs z) in *. set (l := Z.log2 a).
  assert (Ha : 0 < a) by lia.
  pose proof (Z.log2_spec a Ha) as [L1 L2]. fold l in L1, L2.
  assert (0 <= l) by apply Z.log2_nonneg.
  assert (l < 53). { apply Z.log2_lt_pow2; lia. }
  assert (P1 : 2 ^ l * 2 ^ (52 - l) = 2 ^ 52) by (rewrite <- Z.pow_add_r by lia; f_equal; lia).
  assert (P2 : 2 ^ Z.succ l * 2 ^ (52 - l) = 2 * 2 ^ 52).
  { rewrite <- Z.pow_add_r by lia. rewrite <- Z.pow_succ_r by lia. f_equal. lia. }
  assert (0 < 2 ^ (52 - l)) by (apply Z.pow_pos_nonneg; lia).
  assert (R : 2 ^ 52 <= a * 2 ^ (52 - l) < 2 * 2 ^ 52).
  { rewrite <- P2, <- P1. split; [apply Z.mul_le_mono_nonneg_r; lia | apply Z.mul_lt_mono_pos_r; lia]. }
  exists (l - 52). split; [|reflexivity].
  replace (l - 52) with ((l + 1023) - 1075) by lia.
  replace (a * 2 ^ (52 - l)) with (2 ^ 52 + (a * 2 ^ (52 - l) - 2 ^ 52)) at 2 by lia.
  replace (if z <? 0 then 2 ^ 63 else 0) with ((if z <? 0 then 1 else 0) * 2 ^ 63) by (destruct (z <? 0); reflexivity).
  apply Dnormal; [lia | lia].
Qed.

Lemma dval_of_int : forall z, Z.abs z < 2 ^ 53 -> dval (dbl_of_int z) = z * unit.
Proof.
  intros z H. destruct (Z.eq_dec z 0) as [-> | Hz]; [reflexivity|].
  destruct (dbl_of_int_double z H Hz) as (e & D & He).
  rewrite (dval_double _ _ _ _ D). subst e.
  assert (0 <= Z.log2 (Z.abs z)) by apply Z.log2_nonneg.
  assert (Z.log2 (Z.abs z) < 53) by (apply Z.log2_lt_pow2; lia).
  rewrite <- Z.mul_assoc, <- Z.pow_add_r by lia.
  replace (52 - Z.log2 (Z.abs z) + (Z.log2 (Z.abs z) - 52 + 1074)) with 1074 by lia.
  fold unit. destruct (Z.ltb_spec z 0); cbn [with_sign]; [rewrite Z.abs_neq by lia | rewrite Z.abs_eq by lia]; ring.
Qed.

Lemma dbl_of_int_range : forall z, Z.abs z < 2 ^ 53 -> 0 <= dbl_of_int z < 2 ^ 64.
Proof.
  intros z H. destruct (Z.eq_dec z 0) as [-> | Hz]; [split; [discriminate | reflexivity]|].
  destruct (dbl_of_int_double z H Hz) as (e & D & _). exact (double_range _ _ _ _ D).
Qed.

(** a number that is the integer [z] *)
Lemma truncated_of_int : forall z, Z.abs z < 2 ^ 53 -> truncated (dbl_of_int z) z.
Proof.
  intros z H. destruct (truncated_total _ (dbl_of_int_range z H)) as [t T].
  assert (t = z) as <-; [|exact T].
  destruct (Z.eq_dec z 0) as [-> | Hz].
  - apply (truncated_fun (dbl_of_int 0)); [exact T|].
    change (dbl_of_int 0) with ((if false then 1 else 0) * 2 ^ 63 + 0).
    apply (Tfinite _ false 0 (-1074)). apply (Dsubnormal false 0). split; [discriminate | reflexivity].
  - destruct (dbl_of_int_double z H Hz) as (e & D & He).
    apply (truncated_fun (dbl_of_int z)); [exact T|].
    assert (Q : dtrunc (dbl_of_int z) = z).
    { unfold dtrunc. rewrite dval_of_int by exact H. apply Z.quot_mul. pose proof unit_pos; lia. }
    rewrite (dtrunc_double _ _ _ _ D) in Q. rewrite <- Q at 2. apply (Tfinite _ _ _ _ D).
Qed.

(** ** Operators *)
Lemma land31 : forall n, Z.land n 31 = n mod 32.
Proof. intro n. change 31 with (Z.ones 5). rewrite Z.land_ones by lia. reflexivity. Qed.

Lemma mod_mod32 : forall t, (t mod 2 ^ 32) mod 32 = t mod 32.
Proof.
  intro t. change (2 ^ 32) with (32 * 134217728).
  rewrite Z.rem_mul_r by lia. rewrite (Z.mul_comm 32), Z.mod_add by lia. apply Z.mod_mod. lia.
Qed.

Lemma to_int32_some : forall b t, truncated b t -> fits64 t ->
  exists n, rjs_to_int32 b = Some n /\ modular_s 32 t n.
Proof. intros b t T F. apply (proj1 (to_int_signed 32 b t ltac:(lia) T)). exact F. Qed.

Lemma to_uint32_some : forall b t, truncated b t -> fits64 t -> rjs_to_uint32 b = Some (t mod 2 ^ 32).
Proof.
  intros b t T F. destruct (proj1 (to_int_unsigned 32 b t ltac:(lia) T) F) as (r & E & M).
  unfold rjs_to_uint32. rewrite E. f_equal. apply modular_u_eq in M; [exact M | lia].
Qed.

Lemma left_shift_spec : forall v1 v2 t1 t2, truncated v1 t1 -> truncated v2 t2 -> fits64 t1 -> fits64 t2 ->
  exists n1 r, modular_s 32 t1 n1 /\ number_left_shift v1 v2 = Some r /\
               modular_s 32 (n1 * 2 ^ (t2 mod 32)) r.
Proof.
  intros v1 v2 t1 t2 T1 T2 F1 F2. destruct (to_int32_some _ _ T1 F1) as (n1 & E1 & M1).
  unfold number_left_shift. rewrite E1, (to_uint32_some _ _ T2 F2). cbn [bind2].
  rewrite land31, mod_mod32. exists n1, (to_signed 32 (n1 * 2 ^ (t2 mod 32))).
  split; [exact M1|]. split; [reflexivity | apply signed_modular; lia].
Qed.

Lemma signed_right_shift_spec : forall v1 v2 t1 t2, truncated v1 t1 -> truncated v2 t2 -> fits64 t1 -> fits64 t2 ->
  exists n1, modular_s 32 t1 n1 /\ number_signed_right_shift v1 v2 = Some (n1 / 2 ^ (t2 mod 32)).
Proof.
  intros v1 v2 t1 t2 T1 T2 F1 F2. destruct (to_int32_some _ _ T1 F1) as (n1 & E1 & M1).
  unfold number_signed_right_shift. rewrite E1, (to_uint32_some _ _ T2 F2). cbn [bind2].
  rewrite land31, mod_mod32. exists n1. split; [exact M1|].
  rewrite Z.shiftr_div_pow2 by (apply Z.mod_pos_bound; lia). reflexivity.
Qed.

Lemma cast_uint32_spec : forall b t, truncated b t ->
  (forall x, cast_uint32 b = Some x <->
     (exists s m e, double b s m e) /\ x = t /\ 0 <= t < 2 ^ 32).
Proof.
  intros b t T x. unfold cast_uint32. destruct T as [s m e D | s D | D].
  - destruct (double_fields _ _ _ _ D) as (_ & A & B & _). rewrite A, B. cbn [orb].
    rewrite (dtrunc_double _ _ _ _ D). set (t := with_sign s (whole m e)).
    destruct (Z.leb_spec 0 t); destruct (Z.ltb_spec t (2 ^ 32)); cbn [andb]; split; intro H1;
      try discriminate; try (exfalso; lia).
    + injection H1 as <-. split; [exists s, m, e; exact D|]. split; [reflexivity | lia].
    + destruct H1 as (_ & -> & _). reflexivity.
  - destruct (infinite_fields _ _ D) as (_ & A & B & _). rewrite A, B. cbn [orb]. split; [discriminate|].
    intros ((s' & m & e & D') & _). destruct (double_fields _ _ _ _ D') as (_ & _ & B' & _). congruence.
  - destruct (nan_fields _ D) as (A & _). rewrite A. cbn [orb]. split; [discriminate|].
    intros ((s' & m & e & D') & _). destruct (double_fields _ _ _ _ D') as (_ & A' & _). congruence.
Qed.

Lemma unsigned_right_shift_spec : forall v1 v2 t1 t2, truncated v1 t1 -> truncated v2 t2 ->
  forall r, number_unsigned_right_shift v1 v2 = Some r <->
    (exists s m e, double v1 s m e) /\ (exists s m e, double v2 s m e) /\
    0 <= t1 < 2 ^ 32 /\ 0 <= t2 < 32 /\ r = t1 / 2 ^ t2.
Proof.
  intros v1 v2 t1 t2 T1 T2 r. unfold number_unsigned_right_shift.
  pose proof (cast_uint32_spec v1 t1 T1) as C1. pose proof (cast_uint32_spec v2 t2 T2) as C2.
  destruct (cast_uint32 v1) as [n1|]; destruct (cast_uint32 v2) as [n2|]; cbn [bind2].
  - destruct (proj1 (C1 n1) eq_refl) as (D1 & -> & R1). destruct (proj1 (C2 n2) eq_refl) as (D2 & -> & R2).
    destruct (Z.ltb_spec t2 32).
    + rewrite Z.shiftr_div_pow2 by lia. split.
      * intro H1. injection H1 as <-. repeat split; try assumption; lia.
      * intros (_ & _ & _ & _ & ->). reflexivity.
    + split; [discriminate|]. intros (_ & _ & _ & R & _). lia.
  - split; [discriminate|]. intros (_ & D2 & _ & R & _). exfalso.
    assert (None = Some t2) as X; [apply C2; split; [exact D2 | split; [reflexivity|]]; change (2 ^ 32) with 4294967296; lia | discriminate].
  - split; [discriminate|]. intros (D1 & _ & R & _). exfalso.
    assert (None = Some t1) as X; [apply C1; split; [exact D1 | split; [reflexivity | exact R]] | discriminate].
  - split; [discriminate|]. intros (D1 & _ & R & _). exfalso.
    assert (None = Some t1) as X; [apply C1; split; [exact D1 | split; [reflexivity | exact R]] | discriminate].
Qed.

Lemma modular_bits : forall t n i, modular_s 32 t n -> 0 <= i < 32 -> Z.testbit n i = Z.testbit t i.
Proof.
  intros t n i [_ [q ->]] Hi.
  rewrite <- (Z.mod_pow2_bits_low n 32 i) by lia. rewrite <- (Z.mod_pow2_bits_low (n + q * 2 ^ 32) 32 i) by lia.
  rewrite Z.mod_add by (change (2 ^ 32) with 4294967296; lia). reflexivity.
Qed.

(** an int32 is its 32 low bits with the sign bit repeated *)
Lemma int32_high : forall n i, - 2 ^ 31 <= n < 2 ^ 31 -> 31 <= i -> Z.testbit n i = (n <? 0).
Proof.
  intros n i H Hi. destruct (Z.ltb_spec n 0).
  - apply Z.bits_above_log2_neg; [lia|]. destruct (Z.eq_dec (Z.pred (- n)) 0) as [-> | N0]; [cbn; lia|].
    apply Z.log2_lt_pow2; [lia|]. apply Z.lt_le_trans with (2 ^ 31); [lia | apply Z.pow_le_mono_r; lia].
  - destruct (Z.eq_dec n 0) as [-> | N0]; [apply Z.bits_0|].
    apply Z.bits_above_log2; [lia|]. apply Z.log2_lt_pow2; [lia|].
    apply Z.lt_le_trans with (2 ^ 31); [lia | apply Z.pow_le_mono_r; lia].
Qed.

Lemma int32_of_high : forall r s, (forall i, 31 <= i -> Z.testbit r i = s) -> - 2 ^ 31 <= r < 2 ^ 31.
Proof.
  intros r s H.
  assert (S : Z.shiftr r 31 = if s then -1 else 0).
  { apply Z.bits_inj'. intros i Hi. rewrite Z.shiftr_spec by lia. rewrite H by lia.
    destruct s; [rewrite Z.bits_m1 by lia | rewrite Z.bits_0]; reflexivity. }
  rewrite Z.shiftr_div_pow2 in S by lia.
  pose proof (Z.div_mod r (2 ^ 31) ltac:(discriminate)). pose proof (Z.mod_pos_bound r (2 ^ 31) ltac:(reflexivity)).
  destruct s; lia.
Qed.

Definition bitop (op : Z -> Z -> Z) (f : bool -> bool -> bool) :=
  forall x y i, Z.testbit (op x y) i = f (Z.testbit x i) (Z.testbit y i).

Lemma bit2_spec : forall op f, bitop op f -> forall v1 v2 t1 t2,
  truncated v1 t1 -> truncated v2 t2 -> fits64 t1 -> fits64 t2 ->
  exists r, bind2 (rjs_to_int32 v1) (rjs_to_int32 v2) (fun n1 n2 => Some (op n1 n2)) = Some r /\
    - 2 ^ 31 <= r < 2 ^ 31 /\
    forall i, 0 <= i < 32 -> Z.testbit r i = f (Z.testbit t1 i) (Z.testbit t2 i).
Proof.
  intros op f Hop v1 v2 t1 t2 T1 T2 F1 F2.
  destruct (to_int32_some _ _ T1 F1) as (n1 & E1 & M1). destruct (to_int32_some _ _ T2 F2) as (n2 & E2 & M2).
  rewrite E1, E2. cbn [bind2]. exists (op n1 n2). split; [reflexivity|]. split.
  - apply (int32_of_high _ (f (n1 <? 0) (n2 <? 0))). intros i Hi. rewrite Hop.
    rewrite (int32_high n1), (int32_high n2); [reflexivity | exact (proj1 M2) | lia | exact (proj1 M1) | lia].
  - intros i Hi. rewrite Hop, (modular_bits t1 n1), (modular_bits t2 n2) by assumption. reflexivity.
Qed.

Lemma not_spec : forall v t, truncated v t -> fits64 t ->
  exists r, number_bitwise_not v = Some r /\ - 2 ^ 31 <= r < 2 ^ 31 /\
    forall i, 0 <= i < 32 -> Z.testbit r i = negb (Z.testbit t i).
Proof.
  intros v t T F. destruct (to_int32_some _ _ T F) as (n & E & M).
  unfold number_bitwise_not. rewrite E. exists (- n - 1). split; [reflexivity|].
  destruct M as [R Q]. change (32 - 1) with 31 in R. split; [lia|].
  intros i Hi. replace (- n - 1) with (Z.lnot n) by (unfold Z.lnot; lia).
  rewrite Z.lnot_spec by lia. rewrite (modular_bits t n); [reflexivity | split; [exact R | exact Q] | exact Hi].
Qed.
