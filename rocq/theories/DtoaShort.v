(** * The shortest decimal: proofs *)
Require Import ZArith QArith Qabs Qpower List Bool Lia Lqa.
From Verif Require Import DtoaModel DtoaSpec DtoaProofs DtoaText.
Import ListNotations.
Local Open Scope Z_scope.

(** ** Scaling *)

Definition kx (m e : Z) : Z := kexp (bx m e) (sx e).

Lemma sx_pos : forall e, 0 < sx e.
Proof. intros; apply pow2_pos; lia. Qed.

Lemma bx_pos : forall m e, 0 < m -> 0 < bx m e.
Proof. intros; apply Z.mul_pos_pos; [lia|apply pow2_pos; lia]. Qed.

Lemma s_pos : forall e k, 0 < s_of e k.
Proof. intros; apply Z.mul_pos_pos; [apply sx_pos|apply pow10_pos; lia]. Qed.

Lemma u_pos : forall e k, 0 < u_of e k.
Proof. intros; apply Z.mul_pos_pos; [apply pow2_pos; lia|apply pow10_pos; lia]. Qed.

Lemma b_mu : forall m e k, b_of m e k = m * u_of e k.
Proof. intros; unfold b_of, u_of, bx; ring. Qed.

Lemma scale_ok : forall m e, 0 < m ->
  s_of e (kx m e) <= b_of m e (kx m e) < 10 * s_of e (kx m e).
Proof.
  intros m e H. pose proof (kexp_spec (bx m e) (sx e) (bx_pos m e H) (sx_pos e)) as K.
  exact K.
Qed.

Lemma valid_m : forall g m e, valid (Fin g m e) -> 0 < m < 2 ^ 53.
Proof.
  intros g m e [H|H]; [|destruct H as [H _]].
  - change (2 ^ 52) with 4503599627370496 in H. lia.
  - change (2 ^ 53) with (2 * 2 ^ 52). lia.
Qed.

Lemma gap_ok : forall g m e, valid (Fin g m e) ->
  let k := kx m e in
  (if spec_case m e then 4 else 2) * s_of e k <
  (u_of e k + if spec_case m e then 2 * u_of e k else u_of e k) * 10 ^ 16.
Proof.
  intros g m e V k. pose proof (valid_m _ _ _ V) as M.
  pose proof (scale_ok m e ltac:(lia)) as [S1 _]. fold k in S1.
  pose proof (u_pos e k) as U. rewrite b_mu in S1.
  change (2 ^ 53) with 9007199254740992 in M.
  change (10 ^ 16) with 10000000000000000.
  unfold spec_case. destruct (Z.eqb_spec m (2 ^ 52)) as [E|E].
  - change (2 ^ 52) with 4503599627370496 in E. destruct (-1074 <? e); cbn [andb]; nia.
  - cbn [andb]. nia.
Qed.

Lemma k_range : forall g m e, valid (Fin g m e) -> -900 < kx m e < 900.
Proof.
  intros g m e V. pose proof (valid_m _ _ _ V) as M.
  pose proof (scale_ok m e ltac:(lia)) as [S1 S2]. set (k := kx m e) in *. clearbody k.
  assert (Ee : -1074 <= e <= 971) by (destruct V as [V|V]; lia).
  unfold s_of, b_of, bx, sx in *.
  assert (P2 : forall n, 0 <= n <= 1074 -> 1 <= 2 ^ n <= 2 ^ 1074).
  { intros n Hn. split; [pose proof (pow2_pos n); lia|]. apply Z.pow_le_mono_r; lia. }
  assert (Big : 10 * 2 ^ 53 * 2 ^ 1074 < 10 ^ 900) by (vm_compute; reflexivity).
  pose proof (P2 (Z.max e 0) ltac:(lia)) as E1. pose proof (P2 (Z.max (- e) 0) ltac:(lia)) as E2.
  assert (M0 : 0 < 2 ^ 53) by (vm_compute; reflexivity).
  set (a := 2 ^ Z.max e 0) in *. set (c := 2 ^ Z.max (- e) 0) in *. set (t := 2 ^ 1074) in *.
  set (q := 2 ^ 53) in *. clearbody a c t q.
  split.
  - destruct (Z.le_gt_cases k (-900)) as [L|L]; [exfalso|exact L].
    rewrite (Z.max_r k 0) in * by lia. rewrite (Z.max_l (- k) 0) in * by lia.
    change (10 ^ 0) with 1 in *.
    assert (10 ^ 900 <= 10 ^ (- k)) by (apply Z.pow_le_mono_r; lia).
    set (w := 10 ^ (- k)) in *. set (z := 10 ^ 900) in *. clearbody w z.
    assert (1 <= m * a) by nia. assert (1 * w <= m * a * w) by (apply Z.mul_le_mono_nonneg_r; lia).
    assert (1 * t <= q * t) by (apply Z.mul_le_mono_nonneg_r; lia). lia.
  - destruct (Z.le_gt_cases 900 k) as [L|L]; [exfalso|exact L].
    rewrite (Z.max_l k 0) in * by lia. rewrite (Z.max_r (- k) 0) in * by lia.
    change (10 ^ 0) with 1 in *.
    assert (10 ^ 900 <= 10 ^ k) by (apply Z.pow_le_mono_r; lia).
    set (w := 10 ^ k) in *. set (z := 10 ^ 900) in *. clearbody w z.
    assert (1 * w <= c * w) by (apply Z.mul_le_mono_nonneg_r; lia).
    assert (m * a <= q * t) by (apply Z.mul_le_mono_nonneg; lia). lia.
Qed.

(** ** Rationals *)

Local Open Scope Q_scope.

Lemma ten_nz : ~ (10 # 1) == 0.
Proof. discriminate. Qed.
Lemma two_nz : ~ (2 # 1) == 0.
Proof. discriminate. Qed.

Lemma p10_pos : forall t, 0 < (10 # 1) ^ t.
Proof. intros. apply Qpower_0_lt. reflexivity. Qed.
Lemma p2_pos : forall t, 0 < (2 # 1) ^ t.
Proof. intros. apply Qpower_0_lt. reflexivity. Qed.

Lemma inj10 : forall n, (0 <= n)%Z -> inject_Z (10 ^ n) == (10 # 1) ^ n.
Proof. intros. apply Zpower_Qpower. assumption. Qed.
Lemma inj2 : forall n, (0 <= n)%Z -> inject_Z (2 ^ n) == (2 # 1) ^ n.
Proof. intros. apply Zpower_Qpower. assumption. Qed.

Lemma inj_pos : forall n, (0 < n)%Z -> 0 < inject_Z n.
Proof. intros. change 0 with (inject_Z 0). rewrite <- Zlt_Qlt. assumption. Qed.

Lemma dec_shift : forall a z t, (0 <= z)%Z -> dec_q (a * 10 ^ z) t == dec_q a (t + z).
Proof.
  intros. unfold dec_q. rewrite inject_Z_mult, inj10 by assumption.
  rewrite (Qpower_plus _ t z ten_nz). ring.
Qed.

(** 2^e is u / s * 10^k. *)
Lemma two_power : forall e k,
  (2 # 1) ^ e * inject_Z (s_of e k) == inject_Z (u_of e k) * (10 # 1) ^ k.
Proof.
  intros. unfold s_of, u_of, sx. rewrite !inject_Z_mult, !inj10, !inj2 by lia.
  rewrite Qmult_assoc, <- (Qpower_plus _ e _ two_nz).
  rewrite <- Qmult_assoc, <- (Qpower_plus _ _ k ten_nz).
  replace (e + Z.max (- e) 0)%Z with (Z.max e 0) by lia.
  replace (Z.max (- k) 0 + k)%Z with (Z.max k 0) by lia. reflexivity.
Qed.

Lemma bin_scale : forall M e j k, (0 <= j)%Z ->
  bin_q M (e - j) * inject_Z (2 ^ j * s_of e k) == inject_Z (M * u_of e k) * (10 # 1) ^ k.
Proof.
  intros M e j k H. unfold bin_q. rewrite !inject_Z_mult, inj2 by assumption.
  rewrite <- !Qmult_assoc. rewrite <- two_power.
  replace e with ((e - j) + j)%Z at 3 by ring.
  rewrite (Qpower_plus _ (e - j) j two_nz). ring.
Qed.

Lemma dec_scale : forall D k i, (1 <= i)%Z ->
  dec_q D (k + 1 - i) * inject_Z (10 ^ (i - 1)) == inject_Z D * (10 # 1) ^ k.
Proof.
  intros D k i H. unfold dec_q. rewrite inj10 by lia.
  rewrite <- Qmult_assoc, <- (Qpower_plus _ _ _ ten_nz).
  replace (k + 1 - i + (i - 1))%Z with k by ring. reflexivity.
Qed.

(** A decimal of i digits against a binary fraction, by integers. *)
Lemma compare_scaled : forall D k i q A C, (1 <= i)%Z -> (0 < C)%Z ->
  q * inject_Z C == inject_Z A * (10 # 1) ^ k ->
  ((dec_q D (k + 1 - i) < q <-> (D * C < A * 10 ^ (i - 1))%Z) /\
   (dec_q D (k + 1 - i) == q <-> (D * C = A * 10 ^ (i - 1))%Z) /\
   (q < dec_q D (k + 1 - i) <-> (A * 10 ^ (i - 1) < D * C)%Z)).
Proof.
  intros D k i q A C Hi HC E.
  pose proof (dec_scale D k i Hi) as DE.
  pose proof (pow10_pos (i - 1) ltac:(lia)) as P.
  set (w := (10 ^ (i - 1))%Z) in *.
  pose proof (p10_pos k) as PK. set (z := (10 # 1) ^ k) in *.
  set (d := dec_q D (k + 1 - i)) in *.
  assert (W : 0 < inject_Z C * inject_Z w).
  { apply Qmult_lt_0_compat; apply inj_pos; assumption. }
  assert (E1 : d * (inject_Z C * inject_Z w) == inject_Z (D * C) * z).
  { rewrite inject_Z_mult. transitivity (d * inject_Z w * inject_Z C); [ring|].
    rewrite DE. ring. }
  assert (E2 : q * (inject_Z C * inject_Z w) == inject_Z (A * w) * z).
  { rewrite inject_Z_mult. transitivity (q * inject_Z C * inject_Z w); [ring|].
    rewrite E. ring. }
  clearbody d z w.
  split; [|split].
  - rewrite <- (Qmult_lt_r d q _ W), E1, E2, (Qmult_lt_r _ _ _ PK), <- Zlt_Qlt. reflexivity.
  - split; intros H.
    + assert (H' : inject_Z (D * C) * z == inject_Z (A * w) * z) by (rewrite <- E1, <- E2, H; reflexivity).
      apply Qmult_inj_r in H'; [|intros Z0; rewrite Z0 in PK; inversion PK].
      apply inject_Z_injective. exact H'.
    + assert (H' : d * (inject_Z C * inject_Z w) == q * (inject_Z C * inject_Z w)).
      { rewrite E1, E2, H. reflexivity. }
      apply Qmult_inj_r in H'; [exact H'|]. intros Z0. rewrite Z0 in W. inversion W.
  - rewrite <- (Qmult_lt_r q d _ W), E1, E2, (Qmult_lt_r _ _ _ PK), <- Zlt_Qlt. reflexivity.
Qed.

Lemma dec_le : forall D k i q A C, (1 <= i)%Z -> (0 < C)%Z ->
  q * inject_Z C == inject_Z A * (10 # 1) ^ k ->
  ((dec_q D (k + 1 - i) <= q <-> (D * C <= A * 10 ^ (i - 1))%Z) /\
   (q <= dec_q D (k + 1 - i) <-> (A * 10 ^ (i - 1) <= D * C)%Z)).
Proof.
  intros D k i q A C Hi HC E.
  destruct (compare_scaled D k i q A C Hi HC E) as (L & _ & G).
  split; split; intros H.
  - destruct (Z.le_gt_cases (D * C) (A * 10 ^ (i - 1))) as [X|X]; [exact X|].
    apply G in X. exfalso. apply (Qlt_not_le _ _ X H).
  - apply Qnot_lt_le. intros X. apply G in X. lia.
  - destruct (Z.le_gt_cases (A * 10 ^ (i - 1)) (D * C)) as [X|X]; [exact X|].
    apply L in X. exfalso. apply (Qlt_not_le _ _ X H).
  - apply Qnot_lt_le. intros X. apply L in X. lia.
Qed.

(** ** The ends of the interval *)

Section Ends.
Variables m e : Z.
Hypothesis m_pos : (0 < m)%Z.

Definition kk : Z := kx m e.
Definition cc : Z := if spec_case m e then 4 else 2.
Definition SS : Z := (cc * s_of e kk)%Z.
Definition BB : Z := (cc * b_of m e kk)%Z.
Definition LO : Z := u_of e kk.
Definition HI : Z := if spec_case m e then (2 * u_of e kk)%Z else u_of e kk.

Lemma SS_pos : (0 < SS)%Z.
Proof. unfold SS, cc. pose proof (s_pos e kk). destruct (spec_case m e); lia. Qed.
Lemma LO_pos : (0 < LO)%Z.
Proof. apply u_pos. Qed.
Lemma HI_pos : (0 < HI)%Z.
Proof. unfold HI. pose proof (u_pos e kk). destruct (spec_case m e); lia. Qed.

Lemma below_scale : below m e * inject_Z SS == inject_Z (BB - LO) * (10 # 1) ^ kk.
Proof.
  unfold below, SS, BB, LO, cc. fold (spec_case m e). rewrite b_mu.
  destruct (spec_case m e).
  - replace (4 * (m * u_of e kk) - u_of e kk)%Z with ((4 * m - 1) * u_of e kk)%Z by ring.
    change 4%Z with (2 ^ 2)%Z at 2. apply bin_scale. lia.
  - replace (2 * (m * u_of e kk) - u_of e kk)%Z with ((2 * m - 1) * u_of e kk)%Z by ring.
    change 2%Z with (2 ^ 1)%Z at 2. apply bin_scale. lia.
Qed.

Lemma above_scale : above m e * inject_Z SS == inject_Z (BB + HI) * (10 # 1) ^ kk.
Proof.
  unfold above, SS, BB, HI, cc. rewrite b_mu.
  pose proof (bin_scale (2 * m + 1) e 1 kk ltac:(lia)) as A.
  rewrite !inject_Z_mult in *. change (2 ^ 1)%Z with 2%Z in A.
  destruct (spec_case m e).
  - replace (4 * (m * u_of e kk) + 2 * u_of e kk)%Z with (2 * ((2 * m + 1) * u_of e kk))%Z by ring.
    rewrite !inject_Z_mult.
    transitivity (inject_Z 2 * (bin_q (2 * m + 1) (e - 1) * (inject_Z 2 * inject_Z (s_of e kk)))).
    { change (inject_Z 4) with (inject_Z 2 * inject_Z 2). ring. }
    rewrite A. ring.
  - replace (2 * (m * u_of e kk) + u_of e kk)%Z with ((2 * m + 1) * u_of e kk)%Z by ring.
    rewrite !inject_Z_mult. exact A.
Qed.

Lemma x_scale : bin_q m e * inject_Z SS == inject_Z BB * (10 # 1) ^ kk.
Proof.
  unfold SS, BB. rewrite b_mu, !inject_Z_mult.
  pose proof (two_power e kk) as T. unfold bin_q.
  transitivity (inject_Z m * inject_Z cc * ((2 # 1) ^ e * inject_Z (s_of e kk))); [ring|].
  rewrite T. ring.
Qed.

Local Open Scope Z_scope.

Lemma BB_range : SS <= BB < 10 * SS.
Proof.
  unfold SS, BB, cc, kk. pose proof (scale_ok m e m_pos). destruct (spec_case m e); lia.
Qed.

(** Where a shorter decimal would have to be. *)
Lemma shorter_outside : forall (cont : bool) i p s t,
  1 <= i -> not_enough BB SS LO HI cont i p -> 0 < s -> s < 10 ^ i ->
  (dec_q s t <= below m e)%Q /\ (dec_q s t == below m e -> cont = true)%Q \/
  (above m e <= dec_q s t)%Q /\ (dec_q s t == above m e -> cont = true)%Q.
Proof.
  intros cont i p s t Hi (P0 & P1 & P2 & P3 & P4) Hs Hlen.
  pose proof SS_pos as SP.
  assert (W : exists D, (dec_q s t == dec_q D (kk + 1 - i))%Q /\ True \/
              (dec_q s t < dec_q (10 ^ (i - 1)) (kk + 1 - i))%Q).
  { destruct (Z.le_gt_cases (kk + 1 - i) t) as [L|L].
    - exists (s * 10 ^ (t - (kk + 1 - i))). left. split; [|exact Logic.I].
      rewrite dec_shift by lia. replace (kk + 1 - i + (t - (kk + 1 - i))) with t by ring. reflexivity.
    - exists 0. right.
      assert (T1 : (dec_q s t < dec_q (10 ^ i) t)%Q).
      { unfold dec_q. rewrite (Qmult_lt_r _ _ _ (p10_pos t)), <- Zlt_Qlt. exact Hlen. }
      eapply Qlt_le_trans; [exact T1|].
      replace (10 ^ i) with (1 * 10 ^ i) by ring. rewrite dec_shift by lia.
      replace (10 ^ (i - 1)) with (1 * 10 ^ (i - 1)) by ring. rewrite dec_shift by lia.
      replace (kk + 1 - i + (i - 1)) with kk by ring.
      unfold dec_q. rewrite !Qmult_1_l.
      replace kk with ((t + i) + (kk - (t + i))) by ring.
      rewrite (Qpower_plus _ (t + i) _ ten_nz).
      rewrite <- (Qmult_1_r ((10 # 1) ^ (t + i))) at 1.
      rewrite (Qmult_le_l _ _ _ (p10_pos (t + i))).
      rewrite <- inj10 by lia. change 1%Q with (inject_Z 1). rewrite <- Zle_Qle.
      pose proof (pow10_pos (kk - (t + i)) ltac:(lia)). lia. }
  assert (Low : forall D, D <= p -> (dec_q D (kk + 1 - i) <= below m e)%Q /\
                (dec_q D (kk + 1 - i) == below m e -> cont = true)%Q).
  { intros D HD.
    destruct (dec_le D kk i (below m e) (BB - LO) SS Hi SP below_scale) as [L _].
    destruct (compare_scaled D kk i (below m e) (BB - LO) SS Hi SP below_scale) as (_ & E & _).
    assert (D * SS <= p * SS) by (apply Z.mul_le_mono_nonneg_r; lia).
    split; [apply L; lia|]. intros X. apply E in X. apply P2. lia. }
  destruct W as [D [[E _]|E]].
  - destruct (Z.le_gt_cases D p) as [HD|HD].
    + left. rewrite E. apply Low. exact HD.
    + right. rewrite E.
      destruct (dec_le D kk i (above m e) (BB + HI) SS Hi SP above_scale) as [_ G].
      destruct (compare_scaled D kk i (above m e) (BB + HI) SS Hi SP above_scale) as (_ & EE & _).
      assert ((p + 1) * SS <= D * SS) by (apply Z.mul_le_mono_nonneg_r; lia).
      split; [apply G; lia|]. intros X. apply EE in X. apply P4. lia.
  - left. destruct (Low (10 ^ (i - 1)) P0) as [L _].
    split; [apply Qlt_le_weak; eapply Qlt_le_trans; eauto|].
    intros X. exfalso. rewrite X in E. apply (Qlt_not_le _ _ E L).
Qed.

(** What the digits mean. *)
Lemma good_meaning : forall acc cont strict rs k',
  good BB SS LO HI acc cont strict kk (rs, k') ->
  tidy (rev rs) /\ (length (rev rs) <= 17)%nat /\ kk <= k' <= kk + 1 /\
  let q := decimal_value (rev rs) (k' + 1) in
  within m e q /\
  (q == below m e -> acc = true)%Q /\ (q == above m e -> acc = true)%Q /\
  no_shorter (length (rev rs)) (inside m e) /\
  (cont = false -> no_shorter (length (rev rs)) (within m e)) /\
  (strict = true -> exists i D, 1 <= i /\ (q == dec_q D (kk + 1 - i))%Q /\
     - SS < BB * 10 ^ (i - 1) - D * SS < SS) /\
  (2 <= Z.of_nat (length (rev rs)) -> exists i p,
     zlen rs - 1 <= i /\ 1 <= i /\ not_enough BB SS LO HI cont i p).
Proof.
  intros acc cont strict rs k' (i & D & I & F & L & H & K & Z1 & Z2 & V & A1 & A2 & A3 & A4 & N & St).
  pose proof SS_pos as SP.
  assert (EQ : (decimal_value (rev rs) (k' + 1) == dec_q D (kk + 1 - i))%Q).
  { unfold decimal_value. rewrite rev_length. fold (zlen rs). rewrite value_rev, <- V.
    rewrite dec_shift by lia.
    replace (kk + 1 - i + (k' - kk + i - zlen rs)) with (k' + 1 - zlen rs) by ring. reflexivity. }
  assert (Sh : forall s t, 0 < s -> s < 10 ^ (zlen rs - 1) -> (1 <= length rs)%nat ->
     (dec_q s t <= below m e)%Q /\ (dec_q s t == below m e -> cont = true)%Q \/
     (above m e <= dec_q s t)%Q /\ (dec_q s t == above m e -> cont = true)%Q).
  { intros s t Hs Hl _.
    destruct (Z.le_gt_cases 2 i) as [I2|I2].
    - destruct (N I2) as [p NE]. apply (shorter_outside cont (i - 1) p); try assumption; try lia.
      eapply Z.lt_le_trans; [exact Hl|]. apply Z.pow_le_mono_r; lia.
    - exfalso. assert (zlen rs <= 1) by lia.
      assert (10 ^ (zlen rs - 1) <= 10 ^ 0) by (apply Z.pow_le_mono_r; lia).
      change (10 ^ 0) with 1 in *. lia. }
  destruct (dec_le D kk i (below m e) (BB - LO) SS ltac:(lia) SP below_scale) as [_ G1].
  destruct (dec_le D kk i (above m e) (BB + HI) SS ltac:(lia) SP above_scale) as [G2 _].
  destruct (compare_scaled D kk i (below m e) (BB - LO) SS ltac:(lia) SP below_scale) as (_ & E1 & _).
  destruct (compare_scaled D kk i (above m e) (BB + HI) SS ltac:(lia) SP above_scale) as (_ & E2 & _).
  split; [|split; [|split; [exact K|]]].
  - split; [apply Forall_rev; exact F|]. destruct L as [L0 L1]. split; [|split].
    + intros C. apply L0. rewrite <- (rev_involutive rs), C. reflexivity.
    + destruct rs as [|d t] using rev_ind; [congruence|].
      rewrite rev_app_distr. rewrite last_last in L1. exact L1.
    + destruct rs as [|d t]; [congruence|]. cbn [rev]. rewrite last_last. exact H.
  - rewrite rev_length. unfold zlen in Z1. lia.
  - cbv zeta. rewrite rev_length.
    split; [split; rewrite EQ; [apply G1|apply G2]; lia|].
    split; [intros X; rewrite EQ in X; apply E1 in X; apply A2; lia|].
    split; [intros X; rewrite EQ in X; apply E2 in X; apply A4; lia|].
    split; [|split; [|split]].
    + intros s t Hs H1 Hl [J1 J2]. fold (zlen rs) in Hl.
      destruct (Sh s t Hs Hl H1) as [[X _]|[X _]].
      * apply (Qlt_not_le _ _ J1 X).
      * apply (Qlt_not_le _ _ J2 X).
    + intros C s t Hs H1 Hl [J1 J2]. fold (zlen rs) in Hl.
      destruct (Sh s t Hs Hl H1) as [[X Y]|[X Y]].
      * assert (cont = true) by (apply Y; apply Qle_antisym; assumption). congruence.
      * assert (cont = true) by (apply Y; apply Qle_antisym; assumption). congruence.
    + intros Sr. exists i, D. split; [lia|]. split; [exact EQ|]. apply St. exact Sr.
    + intros L2. fold (zlen rs) in L2. destruct (N ltac:(lia)) as [p NE].
      exists (i - 1), p. split; [lia|]. split; [lia|]. exact NE.
Qed.

(** Below 2^54 the ends of the interval are not short decimals: were one of
    them a decimal with i digits, the number itself would be one. *)
Lemma end_integral : forall M c D i, e <= 1 -> 1 <= i -> Z.odd M = true ->
  (c = 2 \/ c = 4) -> D * (c * s_of e kk) = M * u_of e kk * 10 ^ (i - 1) ->
  exists N, b_of m e kk * 10 ^ (i - 1) = N * s_of e kk.
Proof.
  intros M c D i He Hi HM Hc E. rewrite b_mu. set (k := kk) in *. clearbody k.
  assert (Od : forall X, M = 2 * X -> False).
  { intros X ->. rewrite Z.odd_mul in HM. cbn in HM. discriminate. }
  assert (Od5 : forall t X, 0 <= t -> M * 5 ^ t = 2 * X -> False).
  { intros t X Ht EX. assert (O : Z.odd (M * 5 ^ t) = true).
    { rewrite Z.odd_mul, HM. destruct (Z.eq_dec t 0) as [->|]; [reflexivity|].
      rewrite Z.odd_pow by lia. reflexivity. }
    rewrite EX, Z.odd_mul in O. cbn in O. discriminate. }
  assert (Hcd : exists h, c = 2 * h) by (destruct Hc as [-> | ->]; [exists 1|exists 2]; reflexivity).
  destruct Hcd as [h Eh].
  unfold s_of, u_of, sx in *.
  set (t := i - 1 - k).
  destruct (Z.le_gt_cases 0 t) as [Ht|Ht].
  - assert (P : 10 ^ Z.max (- k) 0 * 10 ^ (i - 1) = 10 ^ Z.max k 0 * 10 ^ t).
    { rewrite <- !Z.pow_add_r by lia. f_equal. lia. }
    assert (Q0 : 10 ^ Z.max k 0 <> 0) by (pose proof (pow10_pos (Z.max k 0)); lia).
    assert (E' : D * c * 2 ^ Z.max (- e) 0 = M * 2 ^ Z.max e 0 * 10 ^ t).
    { apply (Z.mul_cancel_r _ _ (10 ^ Z.max k 0) Q0).
      transitivity (M * (2 ^ Z.max e 0 * 10 ^ Z.max (- k) 0) * 10 ^ (i - 1)).
      - rewrite <- E. ring.
      - transitivity (M * 2 ^ Z.max e 0 * (10 ^ Z.max (- k) 0 * 10 ^ (i - 1))); [ring|].
        rewrite P. ring. }
    destruct (Z.eq_dec e 1) as [->|Ne].
    + change (2 ^ Z.max (- (1)) 0) with 1 in *. change (2 ^ Z.max 1 0) with 2 in *.
      exists (m * 2 * 10 ^ t).
      transitivity (m * 2 * (10 ^ Z.max (- k) 0 * 10 ^ (i - 1))); [ring|]. rewrite P. ring.
    + rewrite (Z.max_l (- e) 0), (Z.max_r e 0) in * by lia. change (2 ^ 0) with 1 in *.
      destruct (Z.le_gt_cases (- e) t) as [Hte|Hte].
      * exists (m * 2 ^ (t + e) * 5 ^ t).
        transitivity (m * (10 ^ Z.max (- k) 0 * 10 ^ (i - 1))); [ring|]. rewrite P.
        change 10 with (2 * 5) at 2. rewrite Z.pow_mul_l.
        replace t with ((t + e) + (- e)) at 1 by ring. rewrite Z.pow_add_r by lia. ring.
      * exfalso. apply (Od5 t (D * h * 2 ^ (- e - t)) Ht).
        assert (Q2 : 2 ^ t <> 0) by (pose proof (pow2_pos t); lia).
        apply (Z.mul_cancel_r _ _ (2 ^ t) Q2).
        transitivity (M * 1 * 10 ^ t).
        { change 10 with (2 * 5). rewrite Z.pow_mul_l. ring. }
        rewrite <- E', Eh. replace (- e) with ((- e - t) + t) at 1 by ring.
        rewrite Z.pow_add_r by lia. ring.
  - exfalso.
    assert (P : 10 ^ Z.max k 0 = 10 ^ Z.max (- k) 0 * 10 ^ (i - 1) * 10 ^ (- t)).
    { rewrite <- !Z.pow_add_r by lia. f_equal. lia. }
    assert (Q0 : 10 ^ Z.max (- k) 0 * 10 ^ (i - 1) <> 0).
    { pose proof (pow10_pos (Z.max (- k) 0)). pose proof (pow10_pos (i - 1)). nia. }
    assert (E' : D * c * 2 ^ Z.max (- e) 0 * 10 ^ (- t) = M * 2 ^ Z.max e 0).
    { apply (Z.mul_cancel_r _ _ _ Q0).
      transitivity (D * (c * (2 ^ Z.max (- e) 0 * 10 ^ Z.max k 0))); [rewrite P; ring|].
      rewrite E. ring. }
    destruct (Z.eq_dec e 1) as [->|Ne].
    + change (2 ^ Z.max (- (1)) 0) with 1 in *. change (2 ^ Z.max 1 0) with 2 in *.
      apply (Od (D * h * 5 * 10 ^ (- t - 1))).
      replace (- t) with ((- t - 1) + 1) in E' by ring. rewrite pow10_succ in E' by lia.
      rewrite Eh in E'. lia.
    + rewrite (Z.max_l (- e) 0), (Z.max_r e 0) in * by lia. change (2 ^ 0) with 1 in *.
      apply (Od (D * h * 2 ^ (- e) * 10 ^ (- t))). rewrite Eh in E'. lia.
Qed.

End Ends.

Local Open Scope Z_scope.

(** ** dtoa in mode 0 *)

Definition flags (m e : Z) : bool * bool * bool :=
  if exact_path e (kx m e) then (true, true, true)
  else (Z.even m, negb (Z.even m), false).

Lemma dtoa_good : forall g m e, valid (Fin g m e) ->
  exists rs k', dtoa Shortest m e = Some (rev rs, k' + 1) /\
    let '(a, c, t) := flags m e in
    good (BB m e) (SS m e) (LO m e) (HI m e) a c t (kk m e) (rs, k').
Proof.
  intros g m e V. pose proof (valid_m _ _ _ V) as M.
  pose proof (gap_ok _ _ _ V) as G. cbv zeta in G.
  pose proof (scale_ok m e ltac:(lia)) as [S1 S2].
  pose proof (s_pos e (kx m e)) as SP. pose proof (u_pos e (kx m e)) as UP.
  unfold dtoa, flags, BB, SS, LO, HI, cc, kk. fold (kx m e).
  set (k := kx m e) in *. clearbody k.
  set (s := s_of e k) in *. set (b := b_of m e k) in *. set (u := u_of e k) in *.
  clearbody s b u.
  destruct (exact_path e k).
  - assert (St : state ((if spec_case m e then 4 else 2) * b) ((if spec_case m e then 4 else 2) * s) u
              (if spec_case m e then 2 * u else u) true ((if spec_case m e then 4 else 2) * b) []).
    { apply state_start; destruct (spec_case m e); lia. }
    destruct (exact_good (spec_case m e) b s u k SP UP S1 S2 G max_digits b [] St
                ltac:(reflexivity) ltac:(cbn; lia)) as ([rs k'] & E & GG).
    change (10 ^ zlen []) with 1 in E. rewrite Z.mul_1_r in E. rewrite E.
    exists rs, k'. split; [reflexivity|exact GG].
  - destruct (spec_case m e).
    + destruct (big_good (Z.even m) (4 * b) (4 * s) u (2 * u) k ltac:(lia) ltac:(lia) ltac:(lia) ltac:(lia) ltac:(lia) G
               max_digits (4 * b) []) as ([rs k'] & E & GG).
      * apply state_start; lia.
      * reflexivity.
      * cbn; lia.
      * change (10 ^ zlen []) with 1 in E. rewrite !Z.mul_1_r in E. rewrite E.
        exists rs, k'. split; [reflexivity|exact GG].
    + destruct (big_good (Z.even m) (2 * b) (2 * s) u u k ltac:(lia) ltac:(lia) ltac:(lia) ltac:(lia) ltac:(lia) G
               max_digits (2 * b) []) as ([rs k'] & E & GG).
      * apply state_start; lia.
      * reflexivity.
      * cbn; lia.
      * change (10 ^ zlen []) with 1 in E. rewrite !Z.mul_1_r in E. rewrite E.
        exists rs, k'. split; [reflexivity|exact GG].
Qed.

(** Every number: in the closed interval, nothing shorter in the open one. *)
Lemma shortest_actual : forall g m e, valid (Fin g m e) ->
  exists ds nv, dtoa Shortest m e = Some (ds, nv) /\ tidy ds /\ (length ds <= 17)%nat /\
    -900 < nv < 1000 /\
    within m e (decimal_value ds nv) /\ no_shorter (length ds) (inside m e).
Proof.
  intros g m e V. destruct (dtoa_good _ _ _ V) as (rs & k' & E & G).
  pose proof (valid_m _ _ _ V) as M. pose proof (k_range _ _ _ V) as K.
  exists (rev rs), (k' + 1). destruct (flags m e) as [[a c] t].
  destruct (good_meaning m e a c t rs k' G) as (T & L & KK & W & _ & _ & N & _).
  unfold kk in KK. repeat split; try assumption; try apply T; try apply W; lia.
Qed.

Lemma k_nonneg : forall m e, 0 < m -> 0 <= e -> 0 <= kx m e.
Proof.
  intros m e M He. unfold kx, kexp.
  assert (L : sx e <= bx m e).
  { unfold sx, bx. rewrite (Z.max_r (- e) 0), (Z.max_l e 0) by lia. change (2 ^ 0) with 1.
    pose proof (pow2_pos e He). nia. }
  destruct (Z.leb_spec (sx e) (bx m e)); [|lia].
  assert (Q1 : 1 <= bx m e / sx e) by (apply Z.div_le_lower_bound; [apply sx_pos|lia]).
  apply ilog10_spec; [exact Q1|apply log_fuel; exact Q1].
Qed.

Lemma not_exact_big : forall g m e, valid (Fin g m e) -> 23 <= e ->
  exact_path e (kx m e) = false.
Proof.
  intros g m e V He. pose proof (valid_m _ _ _ V) as M.
  pose proof (k_nonneg m e ltac:(lia) ltac:(lia)) as K0.
  pose proof (scale_ok m e ltac:(lia)) as [S1 _]. set (k := kx m e) in *. clearbody k.
  unfold s_of, b_of, bx, sx in S1.
  rewrite (Z.max_l e 0), (Z.max_r (- e) 0) in S1 by lia. change (2 ^ 0) with 1 in S1.
  unfold exact_path.
  assert (KE : k < e).
  { destruct (Z.le_gt_cases e k) as [L|L]; [exfalso|exact L].
    rewrite (Z.max_l k 0), (Z.max_r (- k) 0) in S1 by lia. change (10 ^ 0) with 1 in S1.
    assert (A : 10 ^ e <= 10 ^ k) by (apply Z.pow_le_mono_r; lia).
    change 10 with (2 * 5) in A at 1. rewrite Z.pow_mul_l in A.
    assert (B : 5 ^ 23 <= 5 ^ e) by (apply Z.pow_le_mono_r; lia).
    pose proof (pow2_pos e ltac:(lia)) as P.
    change (5 ^ 23) with 11920928955078125 in B. change (2 ^ 53) with 9007199254740992 in M.
    nia. }
  destruct (Z.leb_spec 0 (k - e)); [lia|].
  destruct (Z.ltb_spec k 0); [lia|]. rewrite !andb_false_r. reflexivity.
Qed.

Lemma reads_back_within : forall m e q, reads_back m e q -> within m e q.
Proof.
  intros m e q [[H1 H2]|[H _]]; [|exact H]. split; apply Qlt_le_weak; assumption.
Qed.

Lemma within_cases : forall m e q, within m e q ->
  inside m e q \/ (q == below m e)%Q \/ (q == above m e)%Q.
Proof.
  intros m e q [H1 H2].
  destruct (Qlt_le_dec (below m e) q) as [L1|L1].
  - destruct (Qlt_le_dec q (above m e)) as [L2|L2].
    + left; split; assumption.
    + right; right. apply Qle_antisym; assumption.
  - right; left. apply Qle_antisym; assumption.
Qed.

(** The ends, as integers. *)
Lemma ends_odd : forall m e D i, 1 <= i ->
  ((D * SS m e = (BB m e - LO m e) * 10 ^ (i - 1)) \/
   (D * SS m e = (BB m e + HI m e) * 10 ^ (i - 1))) ->
  exists M c, Z.odd M = true /\ (c = 2 \/ c = 4) /\
    D * (c * s_of e (kk m e)) = M * u_of e (kk m e) * 10 ^ (i - 1).
Proof.
  intros m e D i Hi H. unfold SS, BB, LO, HI, cc in H. rewrite b_mu in H.
  set (u := u_of e (kk m e)) in *. set (s := s_of e (kk m e)) in *. clearbody u s.
  set (w := 10 ^ (i - 1)) in *. clearbody w.
  destruct (spec_case m e); destruct H as [H|H].
  - exists (4 * m - 1), 4. repeat split; [|now right|rewrite H; ring].
    replace (4 * m - 1) with (1 + 2 * (2 * m - 1)) by ring. rewrite Z.odd_add_mul_2. reflexivity.
  - exists (2 * m + 1), 2. repeat split; [|now left|].
    + replace (2 * m + 1) with (1 + 2 * m) by ring. rewrite Z.odd_add_mul_2. reflexivity.
    + lia.
  - exists (2 * m - 1), 2. repeat split; [|now left|rewrite H; ring].
    replace (2 * m - 1) with (1 + 2 * (m - 1)) by ring. rewrite Z.odd_add_mul_2. reflexivity.
  - exists (2 * m + 1), 2. repeat split; [|now left|rewrite H; ring].
    replace (2 * m + 1) with (1 + 2 * m) by ring. rewrite Z.odd_add_mul_2. reflexivity.
Qed.

(** So no decimal within one unit of its last digit is an end. *)
Lemma no_end : forall m e D i, e <= 1 -> 1 <= i -> 
  - SS m e < BB m e * 10 ^ (i - 1) - D * SS m e < SS m e ->
  ~ (D * SS m e = (BB m e - LO m e) * 10 ^ (i - 1)) /\
  ~ (D * SS m e = (BB m e + HI m e) * 10 ^ (i - 1)).
Proof.
  intros m e D i He Hi R.
  assert (P : 0 < 10 ^ (i - 1)) by (apply pow10_pos; lia).
  pose proof (LO_pos m e) as LP. pose proof (HI_pos m e) as HP. pose proof (SS_pos m e) as SP.
  assert (X : (D * SS m e = (BB m e - LO m e) * 10 ^ (i - 1)) \/
              (D * SS m e = (BB m e + HI m e) * 10 ^ (i - 1)) -> False).
  { intros H. destruct (ends_odd m e D i Hi H) as (M & c & O & C & E).
    destruct (end_integral m e M c D i He Hi O C E) as [N EN].
    assert (EB : BB m e * 10 ^ (i - 1) = N * SS m e).
    { unfold BB, SS. transitivity (cc m e * (b_of m e (kk m e) * 10 ^ (i - 1))); [ring|].
      rewrite EN. ring. }
    assert (N = D).
    { rewrite EB in R. assert (- SS m e < (N - D) * SS m e < SS m e) by lia.
      assert (-1 < N - D < 1) by nia. lia. }
    subst N. destruct H as [H|H]; nia. }
  split; intros H; apply X; auto.
Qed.

Lemma shortest_guarded : forall g m e, valid (Fin g m e) -> e <= 1 \/ 23 <= e ->
  exists ds nv, dtoa Shortest m e = Some (ds, nv) /\ tidy ds /\
    reads_back m e (decimal_value ds nv) /\ no_shorter (length ds) (reads_back m e).
Proof.
  intros g m e V He. destruct (dtoa_good _ _ _ V) as (rs & k' & E & G).
  pose proof (valid_m _ _ _ V) as M.
  exists (rev rs), (k' + 1). unfold flags in G.
  destruct (exact_path e (kx m e)) eqn:EP.
  - assert (E1 : e <= 1).
    { destruct He as [He|He]; [exact He|]. rewrite (not_exact_big _ _ _ V He) in EP. discriminate. }
    destruct (good_meaning m e true true true rs k' G) as (T & L & KK & W & _ & _ & N & _ & St & NE).
    split; [exact E|]. split; [exact T|].
    pose proof (SS_pos m e) as SP.
    split.
    + left. destruct (within_cases _ _ _ W) as [I|[I|I]]; [exact I| |].
      * exfalso. destruct (St eq_refl) as (i & D & Hi & ED & R).
        rewrite ED in I.
        destruct (compare_scaled D (kk m e) i (below m e) (BB m e - LO m e) (SS m e) Hi SP (below_scale m e)) as (_ & X & _).
        apply X in I. destruct (no_end m e D i E1 Hi R) as [N1 _]. auto.
      * exfalso. destruct (St eq_refl) as (i & D & Hi & ED & R).
        rewrite ED in I.
        destruct (compare_scaled D (kk m e) i (above m e) (BB m e + HI m e) (SS m e) Hi SP (above_scale m e)) as (_ & X & _).
        apply X in I. destruct (no_end m e D i E1 Hi R) as [_ N1]. auto.
    + intros s t Hs Hk Hl RB. apply reads_back_within in RB.
      destruct (within_cases _ _ _ RB) as [I|I]; [exact (N s t Hs Hk Hl I)|].
      destruct (Z.le_gt_cases 2 (Z.of_nat (length (rev rs)))) as [L2|L2].
      2:{ assert (10 ^ (Z.of_nat (length (rev rs)) - 1) <= 10 ^ 0) by (apply Z.pow_le_mono_r; lia).
          change (10 ^ 0) with 1 in *. lia. }
      destruct (NE L2) as (i & p & Hz & Hi & (P0 & P1 & P2 & P3 & P4)).
      pose proof (LO_pos m e) as LP. pose proof (HI_pos m e) as HP.
      assert (PP : 0 < 10 ^ (i - 1)) by (apply pow10_pos; lia).
      assert (LP' : 0 < LO m e * 10 ^ (i - 1)) by (apply Z.mul_pos_pos; lia).
      assert (HP' : 0 < HI m e * 10 ^ (i - 1)) by (apply Z.mul_pos_pos; lia).
      destruct (no_end m e p i E1 Hi ltac:(lia)) as [N1 _].
      destruct (no_end m e (p + 1) i E1 Hi ltac:(lia)) as [_ N2].
      assert (NE' : not_enough (BB m e) (SS m e) (LO m e) (HI m e) false i p).
      { unfold not_enough. repeat split; try assumption; intros X; exfalso; [apply N1|apply N2]; lia. }
      rewrite rev_length in Hl. fold (zlen rs) in Hl.
      assert (Hl' : s < 10 ^ i).
      { eapply Z.lt_le_trans; [exact Hl|]. apply Z.pow_le_mono_r; lia. }
      destruct RB as [RB1 RB2].
      destruct (shorter_outside m e false i p s t Hi NE' Hs Hl') as [[X Y]|[X Y]].
      * assert (false = true) by (apply Y; apply Qle_antisym; assumption). discriminate.
      * assert (false = true) by (apply Y; apply Qle_antisym; assumption). discriminate.
  - destruct (good_meaning m e _ _ _ rs k' G) as (T & L & KK & W & A1 & A2 & N & NW & _).
    split; [exact E|]. split; [exact T|]. split.
    + destruct (within_cases _ _ _ W) as [I|[I|I]]; [now left| |]; right; split; auto.
    + intros s t Hs Hk Hl RB. destruct (Z.even m) eqn:Ev.
      * apply (NW eq_refl s t Hs Hk Hl). apply reads_back_within. exact RB.
      * destruct RB as [I|[_ C]]; [exact (N s t Hs Hk Hl I)|congruence].
Qed.
