(** * The rounding of LexNumModel is that of IEEE 754 *)
Require Import ZArith QArith Qpower Qfield List Bool Lia.
From Verif Require Import DtoaModel DtoaSpec DtoaShort LexNumModel LexNumSpec.
Import ListNotations.
Local Open Scope Z_scope.

(** ** Rounding to an integer *)

Lemma even_next : forall n, Z.even (n + 1) = negb (Z.even n).
Proof. intros. rewrite Z.add_1_r, Z.even_succ, <- Z.negb_even. reflexivity. Qed.

Lemma half_even_spec : forall a b, 0 < b ->
  let m := half_even a b in
  (2 * m - 1) * b <= 2 * a <= (2 * m + 1) * b /\
  (2 * a = (2 * m - 1) * b \/ 2 * a = (2 * m + 1) * b -> Z.even m = true).
Proof.
  intros a b H. cbv zeta. unfold half_even.
  pose proof (Z.div_mod a b ltac:(lia)) as E. pose proof (Z.mod_pos_bound a b H) as M.
  set (d := a / b) in *. set (r := a mod b) in *. clearbody d r.
  destruct (Z.compare_spec (2 * r) b) as [C|C|C].
  - destruct (Z.even d) eqn:V.
    + split; [nia|auto].
    + split; [nia|intros _; rewrite even_next, V; reflexivity].
  - split; [nia|intros [Q|Q]; exfalso; nia].
  - split; [nia|intros [Q|Q]; exfalso; nia].
Qed.

Lemma half_even_unique : forall a b m, 0 < b ->
  (2 * m - 1) * b <= 2 * a <= (2 * m + 1) * b ->
  (2 * a = (2 * m - 1) * b \/ 2 * a = (2 * m + 1) * b -> Z.even m = true) ->
  half_even a b = m.
Proof.
  intros a b m H R V. destruct (half_even_spec a b H) as [R' V'].
  set (n := half_even a b) in *. clearbody n.
  assert (D : n = m \/ n = m - 1 \/ n = m + 1) by nia.
  destruct D as [D|[D|D]]; [exact D| |]; exfalso; subst n.
  - assert (E : 2 * a = (2 * m - 1) * b) by nia.
    assert (E' : 2 * a = (2 * (m - 1) + 1) * b) by nia.
    specialize (V (or_introl E)). specialize (V' (or_intror E')).
    replace m with (m - 1 + 1) in V by ring. rewrite even_next, V' in V. discriminate.
  - assert (E : 2 * a = (2 * m + 1) * b) by nia.
    assert (E' : 2 * a = (2 * (m + 1) - 1) * b) by nia.
    specialize (V (or_intror E)). specialize (V' (or_introl E')).
    rewrite even_next, V in V'. discriminate.
Qed.

(** ** Scaled integers *)
Section Scaled.
Variables (p q : Z).
Hypotheses (Hp : 0 <= p) (Hq : 0 < q).
Let X := p * 2 ^ 1076.
Definition T (k : Z) : Z := 2 ^ (k + 1076) * q.

Lemma T_pos : forall k, -1076 <= k -> 0 < T k.
Proof using Hq. clear - Hq. intros. unfold T. assert (0 < 2 ^ (k + 1076)) by (apply Z.pow_pos_nonneg; lia). nia. Qed.

Lemma T_succ : forall k, -1076 <= k -> T (k + 1) = 2 * T k.
Proof using Hq. clear - Hq.
  intros. unfold T. replace (k + 1 + 1076) with (Z.succ (k + 1076)) by lia.
  rewrite Z.pow_succ_r by lia. ring.
Qed.

Lemma T_pred : forall k, -1075 <= k -> T k = 2 * T (k - 1).
Proof using Hq. clear - Hq. intros. rewrite <- T_succ by lia. f_equal. lia. Qed.

Lemma T_mono : forall j k, -1076 <= j -> j <= k -> T j <= T k.
Proof using Hq. clear - Hq.
  intros. unfold T. apply Z.mul_le_mono_nonneg_r; [lia|]. apply Z.pow_le_mono_r; lia.
Qed.

Lemma T_shift : forall j k, -1076 <= k -> 0 <= j -> 2 ^ j * T k = T (k + j).
Proof using Hq. clear - Hq.
  intros. unfold T. rewrite Z.mul_assoc, <- Z.pow_add_r by lia. do 2 f_equal. lia.
Qed.

Definition ibelow (m e : Z) : Z :=
  if (m =? 2 ^ 52) && (-1074 <? e) then (4 * m - 1) * T (e - 2) else (2 * m - 1) * T (e - 1).
Definition iabove (m e : Z) : Z := (2 * m + 1) * T (e - 1).

Definition irounds (v : num) (neg : bool) : Prop :=
  match v with
  | Zero g => g = neg /\ X <= T (-1075)
  | Fin g m e => g = neg /\ valid v /\
      ((ibelow m e < X < iabove m e) \/ (ibelow m e <= X <= iabove m e /\ Z.even m = true))
  | Inf g => g = neg /\ (2 ^ 54 - 1) * T 970 <= X
  | Nan => False
  end.

Lemma X_nonneg : 0 <= X.
Proof. unfold X. apply Z.mul_nonneg_nonneg; [lia|]. apply Z.pow_nonneg. lia. Qed.

Lemma log_range : forall L, 0 <= L -> 2 ^ L * q <= X < 2 ^ (L + 1) * q -> Z.log2 (X / q) = L.
Proof.
  intros L HL [A B]. apply Z.log2_unique; [exact HL|]. split.
  - apply Z.div_le_lower_bound; lia.
  - rewrite <- Z.add_1_r. apply Z.div_lt_upper_bound; lia.
Qed.

Lemma log_low : forall L, 0 <= L -> X < 2 ^ (L + 1) * q -> Z.log2 (X / q) <= L.
Proof.
  intros L HL B. pose proof X_nonneg.
  assert (D : X / q < 2 ^ (L + 1)) by (apply Z.div_lt_upper_bound; lia).
  assert (0 <= X / q) by (apply Z.div_pos; lia).
  destruct (Z.eq_dec (X / q) 0) as [->|N]; [cbn; lia|].
  apply Z.lt_succ_r. rewrite <- Z.add_1_r. apply Z.log2_lt_pow2; lia.
Qed.

Lemma log_high : forall L, 0 <= L -> 2 ^ L * q <= X -> L <= Z.log2 (X / q).
Proof.
  intros L HL B. apply Z.log2_le_pow2.
  - apply Z.lt_le_trans with (2 ^ L); [apply Z.pow_pos_nonneg; lia|].
    apply Z.div_le_lower_bound; lia.
  - apply Z.div_le_lower_bound; lia.
Qed.

(** The exponent before rounding. *)
Let e0 := Z.max (Z.log2 (X / q) - 1128) (-1074).

Lemma e0_range : -1074 <= e0.
Proof. unfold e0. lia. Qed.

Lemma e0_cases :
  (-1074 < e0 /\ 2 ^ 52 * T e0 <= X < 2 ^ 53 * T e0) \/ (e0 = -1074 /\ X < 2 ^ 53 * T e0).
Proof.
  pose proof X_nonneg. pose proof (Z.log2_nonneg (X / q)) as N.
  assert (U : X < 2 ^ (Z.log2 (X / q) + 1) * q).
  { assert (X / q < 2 ^ (Z.log2 (X / q) + 1)).
    { destruct (Z.eq_dec (X / q) 0) as [->|D]; [cbn; lia|].
      apply Z.log2_spec. assert (0 <= X / q) by (apply Z.div_pos; lia). lia. }
    pose proof (Z.div_mod X q ltac:(lia)). pose proof (Z.mod_pos_bound X q Hq). nia. }
  unfold e0. set (L := Z.log2 (X / q)) in *.
  destruct (Z.le_gt_cases L 54) as [H1|H1].
  - right. split; [lia|]. replace (Z.max (L - 1128) (-1074)) with (-1074) by lia.
    rewrite T_shift by lia. unfold T. eapply Z.lt_le_trans; [exact U|].
    apply Z.mul_le_mono_nonneg_r; [lia|]. apply Z.pow_le_mono_r; lia.
  - left. replace (Z.max (L - 1128) (-1074)) with (L - 1128) by lia.
    split; [lia|]. rewrite !T_shift by lia. unfold T.
    replace (L - 1128 + 53 + 1076) with (L + 1) by lia.
    replace (L - 1128 + 52 + 1076) with L by lia.
    split; [|exact U].
    assert (2 ^ L <= X / q).
    { apply Z.log2_spec. destruct (Z.le_gt_cases (X / q) 0) as [Q|Q]; [|exact Q].
      unfold L in H1. rewrite Z.log2_nonpos in H1 by exact Q. lia. }
    pose proof (Z.div_mod X q ltac:(lia)). pose proof (Z.mod_pos_bound X q Hq). nia.
Qed.

Lemma to_double_rounds : forall neg, irounds (to_double neg p q) neg.
Proof.
  intros neg. unfold to_double. fold X. fold e0.
  pose proof e0_range as R. pose proof e0_cases as C. clearbody e0.
  change (q * 2 ^ (e0 + 1076)) with (q * 2 ^ (e0 + 1076)).
  replace (q * 2 ^ (e0 + 1076)) with (T e0) by (unfold T; ring).
  pose proof (T_pos e0 ltac:(lia)) as TP.
  destruct (half_even_spec X (T e0) TP) as [M1 M2].
  set (m := half_even X (T e0)) in *. clearbody m.
  pose proof X_nonneg as XN. clearbody X.
  pose proof (T_pred e0 ltac:(lia)) as TE.
  pose proof (T_pos (e0 - 1) ltac:(lia)) as TP1.
  assert (M0 : 0 <= m) by nia.
  assert (MU : m <= 2 ^ 53).
  { destruct C as [[_ [_ C]]|[_ C]]; rewrite TE in *; set (t := T (e0 - 1)) in *; clearbody t; nia. }
  destruct (Z.eqb_spec m (2 ^ 53)) as [E|E].
  - change (2 ^ 52 =? 0) with false. cbv iota.
    destruct (Z.ltb_spec 971 (e0 + 1)) as [H|H]; cbn [irounds].
    + split; [reflexivity|].
      assert (T 970 <= T (e0 - 1)) by (apply T_mono; lia).
      subst m. rewrite TE in M1. set (t := T (e0 - 1)) in *. clearbody t. nia.
    + split; [reflexivity|]. split; [left; lia|]. right. split; [|reflexivity].
      unfold ibelow, iabove. replace (-1074 <? e0 + 1) with true by (symmetry; apply Z.ltb_lt; lia).
      rewrite Z.eqb_refl. cbn [andb]. replace (e0 + 1 - 2) with (e0 - 1) by lia.
      replace (e0 + 1 - 1) with e0 by lia. subst m.
      destruct C as [[_ [_ C]]|[_ C]]; rewrite TE in *; set (t := T (e0 - 1)) in *; clearbody t; nia.
  - destruct (Z.eqb_spec m 0) as [Z0|Z0].
    + cbn [irounds]. split; [reflexivity|]. destruct C as [[C1 [C2 _]]|[C1 C2]].
      * exfalso. nia.
      * subst e0. replace (-1074 - 1) with (-1075) in * by lia. nia.
    + destruct (Z.ltb_spec 971 e0) as [H|H]; cbn [irounds].
      * split; [reflexivity|]. destruct C as [[C1 [C2 _]]|[C1 C2]]; [|lia].
        assert (T 970 <= T (e0 - 2)) by (apply T_mono; lia).
        rewrite TE, T_pred in C2 by lia. replace (e0 - 1 - 1) with (e0 - 2) in C2 by lia.
        pose proof (T_pos 970 ltac:(lia)).
        set (t := T (e0 - 2)) in *; clearbody t. nia.
      * split; [reflexivity|].
        assert (V : (2 ^ 52 <= m < 2 ^ 53 /\ -1074 <= e0 <= 971) \/ (0 < m < 2 ^ 52 /\ e0 = -1074)).
        { destruct C as [[C1 [C2 _]]|[C1 C2]]; [left|lia]. split; [|lia].
          rewrite TE in *. set (t := T (e0 - 1)) in *; clearbody t. nia. }
        split; [exact V|].
        assert (U : X <= iabove m e0) by (unfold iabove; rewrite TE in M1; set (t := T (e0 - 1)) in *; clearbody t; nia).
        assert (L : ibelow m e0 <= X).
        { unfold ibelow. destruct ((m =? 2 ^ 52) && (-1074 <? e0)) eqn:B.
          - apply andb_prop in B. destruct B as [B1 B2]. apply Z.eqb_eq in B1. apply Z.ltb_lt in B2.
            destruct C as [[C1 [C2 _]]|[C1 C2]]; [|lia].
            rewrite TE, T_pred in C2 by lia. replace (e0 - 1 - 1) with (e0 - 2) in C2 by lia.
            pose proof (T_pos (e0 - 2) ltac:(lia)).
            set (t := T (e0 - 2)) in *; clearbody t. nia.
          - rewrite TE in M1. set (t := T (e0 - 1)) in *; clearbody t. nia. }
        destruct (Z.eq_dec (ibelow m e0) X) as [EL|NL].
        { right. split; [lia|]. unfold ibelow in EL.
          destruct ((m =? 2 ^ 52) && (-1074 <? e0)) eqn:B.
          - apply andb_prop in B. destruct B as [B1 _]. apply Z.eqb_eq in B1. rewrite B1. reflexivity.
          - apply M2. left. rewrite TE. lia. }
        destruct (Z.eq_dec X (iabove m e0)) as [EU|NU].
        { right. split; [lia|]. apply M2. right. rewrite TE, EU. unfold iabove. lia. }
        left. lia.
Qed.

Lemma to_double_unique : forall v neg, irounds v neg -> to_double neg p q = v.
Proof.
  intros v neg R. unfold to_double. fold X. fold e0.
  pose proof X_nonneg as XN.
  assert (fin : forall m e, -1074 <= e -> Z.log2 (X / q) = e + 1128 \/ (e = -1074 /\ Z.log2 (X / q) <= 54) ->
     (2 * m - 1) * T e <= 2 * X <= (2 * m + 1) * T e ->
     (2 * X = (2 * m - 1) * T e \/ 2 * X = (2 * m + 1) * T e -> Z.even m = true) ->
     e0 = e /\ half_even X (q * 2 ^ (e + 1076)) = m).
  { intros m e He HL HR HV. split; [unfold e0; lia|].
    replace (q * 2 ^ (e + 1076)) with (T e) by (unfold T; ring).
    apply half_even_unique; [apply T_pos; lia|exact HR|exact HV]. }
  destruct v as [g|g m e|g|]; cbn [irounds] in R; [| | |contradiction].
  - destruct R as [-> R]. change (T (-1075)) with (2 * q) in R.
    destruct (fin 0 (-1074)) as [-> E]; [lia| | | |].
    + right. split; [reflexivity|]. etransitivity; [apply (log_low 2); [lia|]; change (2 ^ (2 + 1)) with 8; lia|lia].
    + change (T (-1074)) with (4 * q). lia.
    + intros _. reflexivity.
    + rewrite E. reflexivity.
  - destruct R as (-> & V & R). cbn [valid] in V.
    assert (He : -1074 <= e <= 971) by lia. assert (Hm : 0 < m < 2 ^ 53) by lia.
    pose proof (T_pred e ltac:(lia)) as TE. pose proof (T_pos (e - 1) ltac:(lia)) as TP1.
    pose proof (T_pred (e - 1) ltac:(lia)) as TE1. replace (e - 1 - 1) with (e - 2) in TE1 by lia.
    pose proof (T_pos (e - 2) ltac:(lia)) as TP2.
    assert (UP : X <= (2 * m + 1) * T (e - 1)) by (unfold iabove in R; lia).
    destruct (Z.lt_ge_cases X (2 ^ 52 * T e)) as [S|S].
    + destruct (Z.eq_dec e (-1074)) as [E1|E1].
      * assert (B : ibelow m e = (2 * m - 1) * T (e - 1)).
        { unfold ibelow. replace (-1074 <? e) with false by (symmetry; apply Z.ltb_ge; lia).
          rewrite andb_false_r. reflexivity. }
        rewrite B in R. unfold iabove in R.
        destruct (fin m e) as [-> F]; [lia| |rewrite TE; lia| |].
        { right. split; [exact E1|]. apply log_low; [lia|]. subst e.
          rewrite T_shift in S by lia. unfold T in S. eapply Z.lt_le_trans; [exact S|].
          apply Z.mul_le_mono_nonneg_r; [lia|]. apply Z.pow_le_mono_r; lia. }
        { rewrite TE. intros Q. destruct R as [R|[_ R]]; [lia|exact R]. }
        rewrite F. destruct (Z.eqb_spec m (2 ^ 53)); [lia|]. destruct (Z.eqb_spec m 0); [lia|].
        destruct (Z.ltb_spec 971 e); [lia|reflexivity].
      * destruct V as [V|V]; [|lia].
        assert (m = 2 ^ 52).
        { destruct (Z.eq_dec m (2 ^ 52)) as [|N]; [assumption|]. exfalso. unfold ibelow in R.
          replace (m =? 2 ^ 52) with false in R by (symmetry; apply Z.eqb_neq; exact N).
          cbn [andb] in R. rewrite TE in S. set (t := T (e - 1)) in *. clearbody t. nia. }
        subst m. unfold ibelow in R. rewrite Z.eqb_refl in R.
        replace (-1074 <? e) with true in R by (symmetry; apply Z.ltb_lt; lia). cbn [andb] in R.
        destruct (fin (2 ^ 53) (e - 1)) as [-> F]; [lia| | | |].
        { left. replace (e - 1 + 1128) with (e + 1127) by lia. apply log_range; [lia|]. split.
          - assert (Q : 2 ^ 53 * T (e - 2) <= X).
            { set (t := T (e - 2)) in *. clearbody t. lia. }
            rewrite T_shift in Q by lia. unfold T in Q.
            replace (e - 2 + 53 + 1076) with (e + 1127) in Q by lia. exact Q.
          - rewrite T_shift in S by lia. unfold T in S.
            replace (e + 52 + 1076) with (e + 1127 + 1) in S by lia. exact S. }
        { rewrite TE in S. rewrite TE1 in S |- *. set (t := T (e - 2)) in *. clearbody t. lia. }
        { reflexivity. }
        rewrite F, Z.eqb_refl. change (2 ^ 52 =? 0) with false. cbv iota.
        replace (e - 1 + 1) with e by lia. destruct (Z.ltb_spec 971 e); [lia|reflexivity].
    + assert (M52 : 2 ^ 52 <= m).
      { rewrite TE in S. set (t := T (e - 1)) in *. clearbody t. nia. }
      assert (LOW : (2 * m - 1) * T (e - 1) <= X /\
                    (X = (2 * m - 1) * T (e - 1) \/ X = (2 * m + 1) * T (e - 1) -> Z.even m = true)).
      { unfold ibelow, iabove in R. destruct ((m =? 2 ^ 52) && (-1074 <? e)) eqn:B.
        - apply andb_prop in B. destruct B as [B _]. apply Z.eqb_eq in B. subst m.
          split; [rewrite TE in S; set (t := T (e - 1)) in *; clearbody t; lia|reflexivity].
        - split; [lia|]. intros Q. destruct R as [R|[_ R]]; [lia|exact R]. }
      destruct LOW as [LOW PAR].
      destruct (fin m e) as [-> F]; [lia| |rewrite TE; lia| |].
      { left. apply log_range; [lia|]. rewrite T_shift in S by lia. unfold T in S.
        replace (e + 52 + 1076) with (e + 1128) in S by lia. split; [exact S|].
        assert (Q : X < 2 ^ 54 * T (e - 1)) by (set (t := T (e - 1)) in *; clearbody t; nia).
        rewrite T_shift in Q by lia. unfold T in Q.
        replace (e - 1 + 54 + 1076) with (e + 1128 + 1) in Q by lia. exact Q. }
      { rewrite TE. intros Q. apply PAR. lia. }
      rewrite F. destruct (Z.eqb_spec m (2 ^ 53)); [lia|]. destruct (Z.eqb_spec m 0); [lia|].
      destruct (Z.ltb_spec 971 e); [lia|reflexivity].
  - destruct R as [-> R].
    destruct (Z.lt_ge_cases X (2 ^ 54 * T 970)) as [S|S].
    + pose proof (T_pos 970 ltac:(lia)) as P970.
      assert (TE : T 971 = 2 * T 970) by (apply (T_pred 971); lia).
      destruct (fin (2 ^ 53) 971) as [-> F]; [lia| | |reflexivity|].
      * left. apply log_range; [lia|]. rewrite T_shift in S by lia. unfold T in S. split; [|exact S].
        assert (Q : 2 ^ 53 * T 970 <= X) by (set (t := T 970) in *; clearbody t; lia).
        rewrite T_shift in Q by lia. unfold T in Q. exact Q.
      * rewrite TE. set (t := T 970) in *. clearbody t. lia.
      * rewrite F. reflexivity.
    + rewrite T_shift in S by lia. unfold T in S.
      pose proof (log_high (970 + 54 + 1076) ltac:(lia) S) as LH.
      assert (E0 : 972 <= e0) by (unfold e0; lia).
      pose proof e0_cases as C. destruct C as [[_ [C _]]|[C _]]; [|lia].
      replace (q * 2 ^ (e0 + 1076)) with (T e0) by (unfold T; ring).
      pose proof (T_pos e0 ltac:(lia)) as TP.
      destruct (half_even_spec X (T e0) TP) as [M1 _].
      set (m := half_even X (T e0)) in *. clearbody m.
      assert (M : 0 < m) by nia.
      destruct (Z.eqb_spec m (2 ^ 53)).
      * change (2 ^ 52 =? 0) with false. cbv iota. destruct (Z.ltb_spec 971 (e0 + 1)); [reflexivity|lia].
      * destruct (Z.eqb_spec m 0); [lia|]. destruct (Z.ltb_spec 971 e0); [reflexivity|lia].
Qed.
End Scaled.

(** ** Back to rational numbers *)

Lemma times_c : forall p q, (0 < q)%Z ->
  ((inject_Z p / inject_Z q) * (inject_Z q * inject_Z (2 ^ 1076)) == inject_Z (p * 2 ^ 1076))%Q.
Proof.
  intros p q H. rewrite inject_Z_mult. set (c := inject_Z (2 ^ 1076)). clearbody c.
  field. intros E. unfold Qeq in E. cbn in E. lia.
Qed.

Lemma bin_c : forall A k q, -1076 <= k -> (0 < q)%Z ->
  (bin_q A k * (inject_Z q * inject_Z (2 ^ 1076)) == inject_Z (A * T q k))%Q.
Proof.
  intros A k q H Hq. unfold bin_q, T. rewrite !inject_Z_mult, !inj2 by lia.
  rewrite Qpower_plus by exact two_nz.
  set (a := ((2 # 1) ^ k)%Q). set (b := ((2 # 1) ^ 1076)%Q). clearbody a b. ring.
Qed.

Lemma c_pos : forall q, (0 < q)%Z -> (0 < inject_Z q * inject_Z (2 ^ 1076))%Q.
Proof.
  intros q H. apply Qmult_lt_0_compat; apply inj_pos; [exact H|]. apply Z.pow_pos_nonneg; lia.
Qed.

Section Bridge.
Variables (p q : Z).
Hypotheses (Hp : 0 <= p) (Hq : 0 < q).
Notation x := (inject_Z p / inject_Z q)%Q.

Lemma le_bin : forall A k, -1076 <= k -> (bin_q A k <= x)%Q <-> A * T q k <= p * 2 ^ 1076.
Proof.
  intros A k H. rewrite <- (Qmult_le_r _ _ _ (c_pos q Hq)), bin_c, times_c by assumption.
  rewrite Zle_Qle. reflexivity.
Qed.
Lemma bin_le : forall A k, -1076 <= k -> (x <= bin_q A k)%Q <-> p * 2 ^ 1076 <= A * T q k.
Proof.
  intros A k H. rewrite <- (Qmult_le_r _ _ _ (c_pos q Hq)), bin_c, times_c by assumption.
  rewrite Zle_Qle. reflexivity.
Qed.
Lemma lt_bin : forall A k, -1076 <= k -> (bin_q A k < x)%Q <-> A * T q k < p * 2 ^ 1076.
Proof.
  intros A k H. rewrite <- (Qmult_lt_r _ _ _ (c_pos q Hq)), bin_c, times_c by assumption.
  rewrite Zlt_Qlt. reflexivity.
Qed.
Lemma bin_lt : forall A k, -1076 <= k -> (x < bin_q A k)%Q <-> p * 2 ^ 1076 < A * T q k.
Proof.
  intros A k H. rewrite <- (Qmult_lt_r _ _ _ (c_pos q Hq)), bin_c, times_c by assumption.
  rewrite Zlt_Qlt. reflexivity.
Qed.

Lemma rounds_irounds : forall v neg, rounds neg x v <-> irounds p q v neg.
Proof.
  intros v neg. destruct v as [g|g m e|g|]; cbn [rounds irounds].
  - rewrite bin_le by lia. rewrite Z.mul_1_l. reflexivity.
  - assert (K : valid (Fin g m e) -> reads_back m e x <->
      (ibelow q m e < p * 2 ^ 1076 < iabove q m e \/
       ibelow q m e <= p * 2 ^ 1076 <= iabove q m e /\ Z.even m = true)).
    { intros V. assert (-1074 <= e) by (cbn [valid] in V; lia).
      unfold reads_back, inside, within, below, above, ibelow, iabove.
      destruct ((m =? 2 ^ 52) && (-1074 <? e)).
      - rewrite lt_bin, bin_lt, le_bin, bin_le by lia. reflexivity.
      - rewrite lt_bin, bin_lt, le_bin, bin_le by lia. reflexivity. }
    split; intros (A & V & R); (split; [exact A|]; split; [exact V|]; apply (K V); exact R).
  - rewrite le_bin by lia. reflexivity.
  - reflexivity.
Qed.

Lemma to_double_spec : forall neg, rounds neg x (to_double neg p q).
Proof. intros. apply rounds_irounds. apply to_double_rounds; assumption. Qed.

Lemma rounds_only : forall v neg, rounds neg x v -> v = to_double neg p q.
Proof. intros v neg R. symmetry. apply to_double_unique; [assumption..|]. apply rounds_irounds. exact R. Qed.
End Bridge.

Lemma rounds_eq : forall neg x y v, (x == y)%Q -> rounds neg x v -> rounds neg y v.
Proof.
  intros neg x y v E R. destruct v; cbn [rounds] in *; auto.
  - rewrite <- E. exact R.
  - destruct R as (A & V & R). split; [exact A|]. split; [exact V|].
    unfold reads_back, inside, within in *. rewrite <- E. exact R.
  - rewrite <- E. exact R.
Qed.

Lemma dec_quotient : forall D E,
  (dec_q D E == inject_Z (D * 10 ^ Z.max E 0) / inject_Z (10 ^ Z.max (- E) 0))%Q.
Proof.
  intros D E. unfold dec_q.
  rewrite inject_Z_mult, !inj10 by lia.
  destruct (Z.le_ge_cases 0 E) as [H|H].
  - rewrite (Z.max_l E) by lia. replace (Z.max (- E) 0) with 0 by lia. cbn [Qpower].
    field.
  - replace (Z.max E 0) with 0 by lia. rewrite Z.max_l by lia.
    rewrite Qpower_opp. cbn [Qpower]. pose proof (p10_pos E) as P.
    set (a := ((10 # 1) ^ E)%Q) in *. clearbody a. field.
    intros Q; rewrite Q in P; apply (Qlt_irrefl 0); exact P.
Qed.

Lemma pow10_gt0 : forall E, 0 < 10 ^ Z.max E 0.
Proof. intros. apply Z.pow_pos_nonneg; lia. Qed.

Lemma dec_double_spec : forall neg D E, 0 <= D -> rounds neg (dec_q D E) (dec_double neg D E).
Proof.
  intros neg D E H. eapply rounds_eq; [symmetry; apply dec_quotient|].
  apply to_double_spec; [|apply pow10_gt0]. pose proof (pow10_gt0 E). nia.
Qed.

Lemma dec_double_only : forall neg D E v, 0 <= D -> rounds neg (dec_q D E) v -> v = dec_double neg D E.
Proof.
  intros neg D E v H R. apply rounds_only; [|apply pow10_gt0|eapply rounds_eq; [apply dec_quotient|exact R]].
  pose proof (pow10_gt0 E). nia.
Qed.

Lemma int_quotient : forall z, (inject_Z z == inject_Z z / inject_Z 1)%Q.
Proof. intros. field. Qed.

Lemma int_double_spec : forall neg z, 0 <= z -> rounds neg (inject_Z z) (to_double neg z 1).
Proof.
  intros. eapply rounds_eq; [symmetry; apply int_quotient|]. apply to_double_spec; lia.
Qed.
Lemma int_double_only : forall neg z v, 0 <= z -> rounds neg (inject_Z z) v -> v = to_double neg z 1.
Proof.
  intros. apply rounds_only; [lia..|]. eapply rounds_eq; [apply int_quotient|assumption].
Qed.

(** ** Out of range *)

Lemma huge_inf : forall neg p q, 0 < q -> 2 ^ 1024 * q <= p -> to_double neg p q = Inf neg.
Proof.
  intros neg p q Hq H. apply to_double_unique; [|exact Hq|].
  - assert (0 < 2 ^ 1024) by (apply Z.pow_pos_nonneg; lia). nia.
  - cbn [irounds]. split; [reflexivity|].
    apply Z.le_trans with (2 ^ 54 * T q 970).
    + assert (P : 0 < T q 970) by (apply T_pos; lia). set (t := T q 970) in *. clearbody t. lia.
    + rewrite T_shift by lia. unfold T. change (970 + 54 + 1076) with (1024 + 1076).
      rewrite Z.pow_add_r by lia. set (a := 2 ^ 1024) in *. set (b := 2 ^ 1076).
      assert (0 < b) by (apply Z.pow_pos_nonneg; lia). clearbody a b. nia.
Qed.

Lemma tiny_zero : forall neg p q, 0 <= p -> 0 < q -> p * 2 ^ 1075 <= q -> to_double neg p q = Zero neg.
Proof.
  intros neg p q Hp Hq H. apply to_double_unique; [exact Hp|exact Hq|].
  cbn [irounds]. split; [reflexivity|]. unfold T. change (-1075 + 1076) with 1.
  change (2 ^ 1076) with (2 ^ (1075 + 1)). rewrite Z.pow_add_r by lia.
  set (b := 2 ^ 1075) in *. clearbody b. lia.
Qed.

Lemma zero_zero : forall neg q, 0 < q -> to_double neg 0 q = Zero neg.
Proof. intros. apply tiny_zero; lia. Qed.

Lemma big_ten : 2 ^ 1024 <= 10 ^ 999.
Proof.
  transitivity (8 ^ 999).
  - change 8 with (2 ^ 3). rewrite <- Z.pow_mul_r by lia. apply Z.pow_le_mono_r; lia.
  - apply Z.pow_le_mono_l. lia.
Qed.
Lemma big_ten' : 2 ^ 1075 <= 10 ^ 999.
Proof.
  transitivity (8 ^ 999).
  - change 8 with (2 ^ 3). rewrite <- Z.pow_mul_r by lia. apply Z.pow_le_mono_r; lia.
  - apply Z.pow_le_mono_l. lia.
Qed.

Lemma dec_huge : forall neg D E, 0 < D -> 999 <= E -> dec_double neg D E = Inf neg.
Proof.
  intros neg D E HD HE. unfold dec_double. apply huge_inf; [apply pow10_gt0|].
  replace (Z.max (- E) 0) with 0 by lia. rewrite Z.max_l by lia. change (10 ^ 0) with 1.
  assert (10 ^ 999 <= 10 ^ E) by (apply Z.pow_le_mono_r; lia).
  pose proof big_ten. set (a := 2 ^ 1024) in *. set (b := 10 ^ 999) in *. set (c := 10 ^ E) in *.
  assert (0 < a) by (apply Z.pow_pos_nonneg; lia).
  clearbody a b c. rewrite Z.mul_1_r. apply Z.le_trans with (1 * c); [lia|].
  apply Z.mul_le_mono_nonneg_r; lia.
Qed.

Lemma dec_tiny : forall neg D E k, 0 <= D < 10 ^ k -> 0 <= k -> E <= - (k + 999) ->
  dec_double neg D E = Zero neg.
Proof.
  intros neg D E k HD Hk HE. unfold dec_double. replace (Z.max E 0) with 0 by lia.
  rewrite Z.max_l by lia. change (10 ^ 0) with 1. rewrite Z.mul_1_r.
  apply tiny_zero; [lia|apply Z.pow_pos_nonneg; lia|].
  assert (10 ^ (k + 999) <= 10 ^ (- E)) by (apply Z.pow_le_mono_r; lia).
  rewrite Z.pow_add_r in H by lia. pose proof big_ten'.
  set (a := 2 ^ 1075) in *. set (b := 10 ^ 999) in *. set (c := 10 ^ (- E)) in *. set (d := 10 ^ k) in *.
  assert (0 < a) by (apply Z.pow_pos_nonneg; lia).
  clearbody a b c d. apply Z.le_trans with (d * b); [|exact H].
  apply Z.mul_le_mono_nonneg; lia.
Qed.
