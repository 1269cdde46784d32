(** Closeness of the rounded digits, the texts in another radix, and lengths. *)
From Coq Require Import ZArith List Bool Lia QArith Qpower Qabs.
From Verif Require Import DtoaModel DtoaSpec DtoaProofs DtoaText DtoaShort DtoaLayout.
Import ListNotations.
Local Open Scope Z_scope.

(** ** The exponent of the first digit *)

Lemma kx_first : forall m e, 0 < m -> first_exponent m e (kx m e).
Proof.
  intros m e M. pose proof (scale_ok m e M) as [A B]. pose proof (s_pos e (kx m e)) as SP.
  assert (X : (bin_q m e * inject_Z (s_of e (kx m e)) ==
               inject_Z (b_of m e (kx m e)) * (10 # 1) ^ (kx m e))%Q).
  { rewrite b_mu. pose proof (bin_scale m e 0 (kx m e) ltac:(lia)) as X.
    rewrite Z.sub_0_r, Z.pow_0_r, Z.mul_1_l in X. exact X. }
  unfold first_exponent. split.
  - destruct (dec_le 1 (kx m e) 1 _ _ _ ltac:(lia) SP X) as [L _].
    replace (kx m e + 1 - 1) with (kx m e) in L by ring. apply L. change (10 ^ (1 - 1)) with 1. lia.
  - destruct (compare_scaled 10 (kx m e) 1 _ _ _ ltac:(lia) SP X) as (_ & _ & G).
    replace (kx m e + 1 - 1) with (kx m e) in G by ring.
    assert (E : (dec_q 10 (kx m e) == dec_q 1 (kx m e + 1))%Q).
    { rewrite <- dec_shift by lia. reflexivity. }
    rewrite <- E. apply G. change (10 ^ (1 - 1)) with 1. lia.
Qed.

Lemma dec_one_mono : forall a b, a <= b -> (dec_q 1 a <= dec_q 1 b)%Q.
Proof.
  intros a b H. replace b with (a + (b - a)) by ring. rewrite <- dec_shift by lia.
  unfold dec_q. apply Qmult_le_compat_r; [|apply Qlt_le_weak, p10_pos].
  rewrite <- Zle_Qle. pose proof (pow10_pos (b - a) ltac:(lia)). lia.
Qed.

Lemma first_unique : forall m e k k', first_exponent m e k -> first_exponent m e k' -> k = k'.
Proof.
  assert (W : forall m e k k', first_exponent m e k -> first_exponent m e k' -> k < k' -> False).
  { intros m e k k' [A B] [C D] H.
    pose proof (dec_one_mono (k + 1) k' ltac:(lia)) as M.
    apply (Qlt_irrefl (bin_q m e)).
    apply Qlt_le_trans with (dec_q 1 (k + 1)); [exact B|].
    apply Qle_trans with (dec_q 1 k'); assumption. }
  intros m e k k' H H'. destruct (Z.lt_trichotomy k k') as [L|[L|L]]; [|exact L|];
    exfalso; eauto.
Qed.

(** ** Distances *)

Lemma scaled_x : forall m e f,
  (bin_q m e * (10 # 1) ^ f * inject_Z (scaled_s e f) == inject_Z (scaled_b m e f))%Q.
Proof.
  intros. unfold scaled_s, scaled_b, bin_q. rewrite !inject_Z_mult, !inj10, !inj2 by lia.
  transitivity (inject_Z m * ((2 # 1) ^ e * (2 # 1) ^ Z.max (- e) 0) *
                ((10 # 1) ^ f * (10 # 1) ^ Z.max (- f) 0))%Q; [ring|].
  rewrite <- (Qpower_plus _ _ _ two_nz), <- (Qpower_plus _ _ _ ten_nz).
  replace (e + Z.max (- e) 0) with (Z.max e 0) by lia.
  replace (f + Z.max (- f) 0) with (Z.max f 0) by lia. reflexivity.
Qed.

(** The distance of j * 10^-f in units of 10^-f / s. *)
Lemma distance_scaled : forall m e f j,
  (distance m e (dec_q j (- f)) * ((10 # 1) ^ f * inject_Z (scaled_s e f)) ==
   inject_Z (Z.abs (j * scaled_s e f - scaled_b m e f)))%Q.
Proof.
  intros m e f j. unfold distance.
  assert (P : (0 <= (10 # 1) ^ f * inject_Z (scaled_s e f))%Q).
  { apply Qlt_le_weak, Qmult_lt_0_compat; [apply p10_pos|apply inj_pos, scaled_s_pos]. }
  rewrite <- (Qabs_pos _ P) at 1. rewrite <- Qabs_Qmult.
  assert (E : ((dec_q j (- f) - bin_q m e) * ((10 # 1) ^ f * inject_Z (scaled_s e f)) ==
               inject_Z (j * scaled_s e f - scaled_b m e f))%Q).
  { unfold Z.sub. rewrite inject_Z_plus, inject_Z_mult, inject_Z_opp, <- scaled_x.
    unfold dec_q.
    transitivity (inject_Z j * ((10 # 1) ^ (- f) * (10 # 1) ^ f) * inject_Z (scaled_s e f) -
                  bin_q m e * (10 # 1) ^ f * inject_Z (scaled_s e f))%Q; [ring|].
    rewrite <- (Qpower_plus _ _ _ ten_nz).
    replace (- f + f) with 0 by ring. change ((10 # 1) ^ 0)%Q with 1%Q. ring. }
  rewrite E. unfold Qabs, inject_Z. reflexivity.
Qed.

Lemma unit_pos : forall e f, (0 < (10 # 1) ^ f * inject_Z (scaled_s e f))%Q.
Proof. intros; apply Qmult_lt_0_compat; [apply p10_pos|apply inj_pos, scaled_s_pos]. Qed.

Lemma distance_le : forall m e f i j,
  Z.abs (i * scaled_s e f - scaled_b m e f) <= Z.abs (j * scaled_s e f - scaled_b m e f) ->
  (distance m e (dec_q i (- f)) <= distance m e (dec_q j (- f)))%Q.
Proof.
  intros m e f i j H. apply (Qmult_le_r _ _ _ (unit_pos e f)). rewrite !distance_scaled.
  rewrite <- Zle_Qle. exact H.
Qed.

Lemma distance_eq : forall m e f i j,
  (distance m e (dec_q i (- f)) == distance m e (dec_q j (- f)))%Q ->
  Z.abs (i * scaled_s e f - scaled_b m e f) = Z.abs (j * scaled_s e f - scaled_b m e f).
Proof.
  intros m e f i j H. apply inject_Z_injective. rewrite <- !distance_scaled, H. reflexivity.
Qed.

(** A number between 10^(p-1) and 10^p that is nearest is as near as any number
    of p digits. *)
Section Near.
Variables (m e k p N : Z).
Hypothesis first : first_exponent m e k.
Hypothesis p_pos : 1 <= p.
Let f := p - 1 - k.
Hypothesis nearest : forall j,
  Z.abs (N * scaled_s e f - scaled_b m e f) <= Z.abs (j * scaled_s e f - scaled_b m e f).

(** A number of p digits with a smaller exponent is farther away. *)
Lemma smaller_farther : forall n' ex', candidate p n' -> ex' < k ->
  (distance m e (dec_q N (- f)) < distance m e (dec_q n' (ex' - p + 1)))%Q.
Proof using first p_pos nearest.
  intros n' ex' [_ C] H. destruct first as [F _].
  assert (A : (dec_q (10 ^ (p - 1)) (- f) == dec_q 1 k)%Q).
  { transitivity (dec_q (1 * 10 ^ (p - 1)) (- f)); [rewrite Z.mul_1_l; reflexivity|].
    rewrite dec_shift by lia. replace (- f + (p - 1)) with k by (unfold f; ring). reflexivity. }
  apply Qle_lt_trans with (distance m e (dec_q (10 ^ (p - 1)) (- f))).
  { apply distance_le. apply nearest. }
  assert (B : (dec_q n' (ex' - p + 1) < dec_q 1 k)%Q).
  { apply Qlt_le_trans with (dec_q (10 ^ p) (ex' - p + 1)).
    - unfold dec_q. apply Qmult_lt_compat_r; [apply p10_pos|]. rewrite <- Zlt_Qlt. exact C.
    - rewrite <- (Z.mul_1_l (10 ^ p)), dec_shift by lia. apply dec_one_mono. lia. }
  unfold distance. rewrite A. 
  rewrite (Qabs_neg (dec_q 1 k - bin_q m e)) by
    (apply (Qplus_le_l _ _ (bin_q m e)); ring_simplify; exact F).
  rewrite (Qabs_neg (dec_q n' (ex' - p + 1) - bin_q m e)) by
    (apply (Qplus_le_l _ _ (bin_q m e)); ring_simplify; apply Qlt_le_weak, (Qlt_le_trans _ _ _ B F)).
  apply (Qplus_lt_l _ _ (dec_q 1 k + dec_q n' (ex' - p + 1) - bin_q m e)). ring_simplify. exact B.
Qed.

Lemma larger_multiple : forall n' ex', k <= ex' ->
  (dec_q n' (ex' - p + 1) == dec_q (n' * 10 ^ (ex' - k)) (- f))%Q.
Proof using.
  intros n' ex' H. rewrite dec_shift by lia. unfold f.
  replace (- (p - 1 - k) + (ex' - k)) with (ex' - p + 1) by ring. reflexivity.
Qed.

Lemma near_all : forall n' ex', candidate p n' ->
  (distance m e (dec_q N (- f)) <= distance m e (dec_q n' (ex' - p + 1)))%Q.
Proof using first p_pos nearest.
  intros n' ex' C. destruct (Z.lt_ge_cases ex' k) as [L|L].
  - apply Qlt_le_weak, smaller_farther; assumption.
  - assert (E : (distance m e (dec_q n' (ex' - p + 1)) == distance m e (dec_q (n' * 10 ^ (ex' - k)) (- f)))%Q).
    { unfold distance. rewrite larger_multiple by lia. reflexivity. }
    rewrite E. apply distance_le, nearest.
Qed.

Lemma near_larger :
  (forall j, Z.abs (N * scaled_s e f - scaled_b m e f) = Z.abs (j * scaled_s e f - scaled_b m e f) -> j <= N) ->
  forall n' ex', candidate p n' ->
  (distance m e (dec_q N (- f)) == distance m e (dec_q n' (ex' - p + 1)))%Q ->
  (dec_q n' (ex' - p + 1) <= dec_q N (- f))%Q.
Proof using first p_pos nearest.
  intros T n' ex' C E. destruct (Z.lt_ge_cases ex' k) as [L|L].
  - exfalso. pose proof (smaller_farther n' ex' C L) as F. rewrite E in F. exact (Qlt_irrefl _ F).
  - assert (D : (distance m e (dec_q n' (ex' - p + 1)) == distance m e (dec_q (n' * 10 ^ (ex' - k)) (- f)))%Q).
    { unfold distance. rewrite larger_multiple by lia. reflexivity. }
    rewrite D in E. apply distance_eq, T in E. rewrite larger_multiple by lia.
    unfold dec_q. apply Qmult_le_compat_r; [|apply Qlt_le_weak, p10_pos].
    rewrite <- Zle_Qle. exact E.
Qed.

(** N lies between 10^(p-1) and 10^p. *)
Lemma near_range : 10 ^ (p - 1) <= N <= 10 ^ p.
Proof using first p_pos nearest.
  pose proof (scaled_s_pos e f) as SP. destruct first as [F G].
  assert (LO : 10 ^ (p - 1) * scaled_s e f <= scaled_b m e f).
  { rewrite Zle_Qle. rewrite <- scaled_x, inject_Z_mult, inj10 by lia.
    apply Qmult_le_compat_r; [|apply Qlt_le_weak, inj_pos, SP].
    unfold dec_q in F. rewrite Qmult_1_l in F.
    apply Qle_trans with ((10 # 1) ^ k * (10 # 1) ^ f)%Q.
    - rewrite <- (Qpower_plus _ _ _ ten_nz). replace (k + f) with (p - 1) by (unfold f; ring). apply Qle_refl.
    - apply Qmult_le_compat_r; [exact F|apply Qlt_le_weak, p10_pos]. }
  assert (HI : scaled_b m e f < 10 ^ p * scaled_s e f).
  { rewrite Zlt_Qlt. rewrite <- scaled_x, inject_Z_mult, inj10 by lia.
    apply Qmult_lt_compat_r; [apply inj_pos, SP|].
    unfold dec_q in G. rewrite Qmult_1_l in G.
    apply Qlt_le_trans with ((10 # 1) ^ (k + 1) * (10 # 1) ^ f)%Q.
    - apply Qmult_lt_compat_r; [apply p10_pos|exact G].
    - rewrite <- (Qpower_plus _ _ _ ten_nz). replace (k + 1 + f) with p by (unfold f; ring). apply Qle_refl. }
  split.
  - pose proof (nearest (10 ^ (p - 1))) as H.
    destruct (Z.le_gt_cases (10 ^ (p - 1)) N); [assumption|exfalso].
    assert (N * scaled_s e f < 10 ^ (p - 1) * scaled_s e f) by (apply Z.mul_lt_mono_pos_r; assumption). lia.
  - pose proof (nearest (10 ^ p)) as H.
    destruct (Z.le_gt_cases N (10 ^ p)); [assumption|exfalso].
    assert (10 ^ p * scaled_s e f < N * scaled_s e f) by (apply Z.mul_lt_mono_pos_r; assumption). lia.
Qed.

Lemma carried_value : forall n ex, carried p k N = (n, ex) ->
  candidate p n /\ (dec_q n (ex - p + 1) == dec_q N (- f))%Q.
Proof using first p_pos nearest.
  intros n ex H. pose proof near_range as R. unfold carried in H. unfold candidate.
  assert (P1 : 10 ^ (p - 1) < 10 ^ p) by (apply Z.pow_lt_mono_r; lia).
  destruct (Z.eqb_spec N (10 ^ p)) as [E|E]; injection H as <- <-.
  - split; [lia|]. rewrite E. unfold f.
    replace (10 ^ p) with (10 ^ (p - 1) * 10 ^ 1) by (rewrite <- Z.pow_add_r by lia; f_equal; ring).
    rewrite dec_shift by lia. replace (k + 1 - p + 1) with (- (p - 1 - k) + 1) by ring. reflexivity.
  - split; [lia|]. unfold f. replace (k - p + 1) with (- (p - 1 - k)) by ring. reflexivity.
Qed.

Lemma carried_closest : forall n ex, carried p k N = (n, ex) -> closest m e p n ex.
Proof using first p_pos nearest.
  intros n ex H. destruct (carried_value n ex H) as [C E]. split; [exact C|].
  intros n' ex' C'. unfold distance at 1. rewrite E. apply near_all. exact C'.
Qed.

Lemma carried_larger : forall n ex, carried p k N = (n, ex) ->
  (forall j, Z.abs (N * scaled_s e f - scaled_b m e f) = Z.abs (j * scaled_s e f - scaled_b m e f) -> j <= N) ->
  larger_of_two m e p n ex.
Proof using first p_pos nearest.
  intros n ex H T n' ex' C' D. destruct (carried_value n ex H) as [C E].
  rewrite E. unfold distance in D at 1. rewrite E in D. apply near_larger; assumption.
Qed.
End Near.

(** The digits the engine takes are as near as possible, and the larger of two
    unless x lies in the middle above an even number. *)
Lemma even_closest : forall m e k p n ex, first_exponent m e k -> 1 <= p ->
  carried p k (round_even (scaled_b m e (p - 1 - k)) (scaled_s e (p - 1 - k))) = (n, ex) ->
  closest m e p n ex.
Proof.
  intros m e k p n ex F P H. eapply carried_closest; [exact F|exact P| |exact H].
  intros j. apply (nearest_even_ok _ _ (scaled_s_pos _ _)).
Qed.

Lemma no_tie_same : forall b s, tie_down b s = false -> round_even b s = round_up b s.
Proof. intros b s H. unfold round_even. unfold tie_down in H. rewrite H. reflexivity. Qed.

Lemma up_larger : forall m e k p n ex, first_exponent m e k -> 1 <= p ->
  carried p k (round_up (scaled_b m e (p - 1 - k)) (scaled_s e (p - 1 - k))) = (n, ex) ->
  closest m e p n ex /\ larger_of_two m e p n ex.
Proof.
  intros m e k p n ex F P H.
  pose proof (nearest_up_ok (scaled_b m e (p - 1 - k)) _ (scaled_s_pos e (p - 1 - k))) as U.
  split.
  - eapply carried_closest; [exact F|exact P| |exact H]. intros j. apply U.
  - eapply carried_larger; [exact F|exact P| |exact H|]; intros j; apply U.
Qed.

(** ** Another radix *)

Lemma numeral_from_enough : forall r, 2 <= r -> forall f n, 0 <= n < r ^ Z.of_nat f -> (1 <= f)%nat ->
  numeral_from f r n = numeral r n.
Proof.
  intros r Hr. 
  assert (A : forall f n, 0 <= n < r ^ Z.of_nat f -> (1 <= f)%nat ->
              value r (numeral_from f r n) = n /\ digit_list r (numeral_from f r n) /\
              numeral_from f r n <> [] /\ (0 < n -> hd 0 (numeral_from f r n) <> 0) /\
              (n = 0 -> numeral_from f r n = [0])).
  { induction f as [|f IH]; intros n H F; [lia|]. cbn [numeral_from].
    destruct (Z.ltb_spec n r) as [L|L].
    - split; [unfold value; cbn [fold_left]; ring|]. split; [constructor; [lia|constructor]|]. split; [discriminate|].
      split; [intros; cbn; lia|intros ->; reflexivity].
    - destruct f as [|f]; [change (Z.of_nat 1) with 1 in H; rewrite Z.pow_1_r in H; lia|].
      assert (R : 0 <= n / r < r ^ Z.of_nat (S f)).
      { rewrite Nat2Z.inj_succ, Z.pow_succ_r in H by lia.
        split; [apply Z.div_pos; lia|apply Z.div_lt_upper_bound; lia]. }
      destruct (IH _ R ltac:(lia)) as (V & D & N & P & _).
      assert (Q : 0 < n / r) by (apply Z.div_str_pos; lia).
      pose proof (Z.mod_pos_bound n r ltac:(lia)). pose proof (Z.div_mod n r ltac:(lia)).
      split; [rewrite value_snoc, V; lia|].
      split; [apply Forall_app; split; [exact D|constructor; [lia|constructor]]|].
      split; [intros C; apply app_eq_nil in C; destruct C; discriminate|].
      split; [|lia].
      intros _. specialize (P Q). destruct (numeral_from (S f) r (n / r)); [congruence|exact P]. }
  intros f n H F. destruct (A f n H F) as (V & D & N & P & Z0).
  rewrite <- V at 2. rewrite numeral_value; try assumption; [reflexivity|].
  destruct (Z.eq_dec n 0) as [E|E]; [right; rewrite (Z0 E); reflexivity|left; apply P; lia].
Qed.

Lemma numeral_base : forall r n, 2 <= r -> 0 <= n < r -> numeral r n = [n].
Proof.
  intros r n Hr H. rewrite <- (numeral_from_enough r Hr 1 n); [|rewrite Z.pow_1_r; lia|lia].
  cbn [numeral_from]. destruct (Z.ltb_spec n r); [reflexivity|lia].
Qed.

Lemma numeral_step : forall r n, 2 <= r -> r <= n -> numeral r n = numeral r (n / r) ++ [n mod r].
Proof.
  intros r n Hr H.
  assert (L : n < 2 ^ Z.of_nat (S (Z.to_nat (Z.log2 n)))).
  { rewrite Nat2Z.inj_succ, Z2Nat.id by apply Z.log2_nonneg. apply Z.log2_spec. lia. }
  set (f := S (Z.to_nat (Z.log2 n))) in *. clearbody f.
  assert (L2 : n < r ^ Z.of_nat f) by (pose proof (Z.pow_le_mono_l 2 r (Z.of_nat f)); lia).
  assert (F : (1 <= f)%nat) by (destruct f; [cbn in L; lia|lia]).
  rewrite <- (numeral_from_enough r Hr (S f) n).
  - cbn [numeral_from]. destruct (Z.ltb_spec n r); [lia|]. f_equal. apply numeral_from_enough; [assumption| |lia].
    split; [apply Z.div_pos; lia|]. apply Z.le_lt_trans with n; [apply Z.div_le_upper_bound; nia|exact L2].
  - rewrite Nat2Z.inj_succ, Z.pow_succ_r by lia. nia.
  - lia.
Qed.

Lemma radix_digits_ok : forall r, 2 <= r -> forall f n acc, 0 <= n < 2 ^ Z.of_nat f -> (1 <= f)%nat ->
  radix_digits f n r acc = Some (text (numeral r n) ++ acc).
Proof.
  intros r Hr. induction f as [|f IH]; intros n acc H F; [lia|]. cbn [radix_digits].
  destruct (Z.ltb_spec n r) as [L|L].
  - rewrite numeral_base by lia. cbn [text map app]. unfold character.
    destruct (Z.ltb_spec n 10); do 2 f_equal; lia.
  - assert (R : 0 <= n / r < 2 ^ Z.of_nat f).
    { rewrite Nat2Z.inj_succ, Z.pow_succ_r in H by lia.
      split; [apply Z.div_pos; lia|]. apply Z.div_lt_upper_bound; [lia|].
      pose proof (pow2_pos (Z.of_nat f) ltac:(lia)). nia. }
    destruct f as [|f]; [change (2 ^ Z.of_nat 1) with 2 in H; lia|].
    rewrite IH by (try exact R; lia). rewrite (numeral_step r n Hr L).
    unfold text. rewrite map_app, <- app_assoc. cbn [map app]. do 4 f_equal.
    unfold character. destruct (Z.ltb_spec (n mod r) 10); lia.
Qed.

Lemma to_string_integer : forall g m e r n, valid (Fin g m e) -> 2 <= r <= 36 -> r <> 10 ->
  bx m e = n * sx e -> n < 2 ^ 63 ->
  to_string (Fin g m e) (Some (Int r)) = Text (signed g (text (numeral r n))).
Proof.
  intros g m e r n V Hr N10 E B. pose proof (valid_m _ _ _ V) as M.
  pose proof (sx_pos e) as SP. pose proof (bx_pos m e ltac:(lia)) as BP.
  unfold to_string. cbn [arg_lt arg_gt arg_int].
  destruct (Z.ltb_spec r 2); [lia|]. destruct (Z.ltb_spec 36 r); [lia|].
  destruct (Z.eqb_spec r 10); [lia|]. cbn [orb]. cbv zeta.
  rewrite E, Z.div_mul, Z.mod_mul by lia.
  assert (NP : 0 < n) by nia.
  change (2 ^ 63) with 9223372036854775808 in *.
  replace ((if g then - n else n) <? - (9223372036854775808)) with false
    by (symmetry; apply Z.ltb_ge; destruct g; lia).
  replace (9223372036854775808 - 1 <? (if g then - n else n)) with false
    by (symmetry; apply Z.ltb_ge; destruct g; lia).
  cbn [orb Z.eqb].
  destruct (Z.eqb_spec (if g then - n else n) (- (9223372036854775808))) as [C|_]; [destruct g; lia|].
  rewrite radix_digits_ok; [|lia| |lia].
  - cbn [option_map of_text]. rewrite app_nil_r, when_signed. reflexivity.
  - split; [lia|]. apply Z.lt_trans with (2 ^ 63); [exact B|]. apply Z.pow_lt_mono_r; lia.
Qed.

Lemma to_string_zero : forall g r, 2 <= r <= 36 -> to_string (Zero g) (Some (Int r)) = Text [48].
Proof.
  intros g r Hr. unfold to_string. cbn [arg_lt arg_gt arg_int].
  destruct (Z.ltb_spec r 2); [lia|]. destruct (Z.ltb_spec 36 r); [lia|]. cbn [orb]. cbv zeta.
  destruct (Z.eqb_spec r 10).
  - destruct g; reflexivity.
  - rewrite radix_digits_ok; [|lia| |lia].
    + rewrite numeral_base by lia. reflexivity.
    + split; [lia|]. apply pow2_pos. lia.
Qed.

(** A number that is not an integer, or too large. *)
Lemma to_string_other : forall g m e r, valid (Fin g m e) -> 2 <= r <= 36 -> r <> 10 ->
  to_string (Fin g m e) (Some (Int r)) =
  if (2 ^ 63 <=? bx m e / sx e) then Undefined
  else if bx m e mod sx e =? 0 then Text (signed g (text (numeral r (bx m e / sx e))))
  else of_text (number_to_string (Fin g m e)).
Proof.
  intros g m e r V Hr N10. pose proof (valid_m _ _ _ V) as M.
  pose proof (sx_pos e) as SP. pose proof (bx_pos m e ltac:(lia)) as BP.
  destruct (Z.leb_spec (2 ^ 63) (bx m e / sx e)) as [C|C].
  - unfold to_string. cbn [arg_lt arg_gt arg_int].
    destruct (Z.ltb_spec r 2); [lia|]. destruct (Z.ltb_spec 36 r); [lia|].
    destruct (Z.eqb_spec r 10); [lia|]. cbn [orb]. cbv zeta.
    set (a := bx m e / sx e) in *. assert (Ea : a = bx m e / sx e) by reflexivity. clearbody a.
    change (2 ^ 63) with 9223372036854775808 in *.
    destruct g.
    + destruct (Z.ltb_spec (- a) (- (9223372036854775808))) as [L|L]; [reflexivity|].
      destruct (Z.ltb_spec (9223372036854775808 - 1) (- a)); [lia|]. cbn [orb].
      assert (X : bx m e mod sx e = 0).
      { assert (X : a = 2 ^ 63) by (change (2 ^ 63) with 9223372036854775808; lia).
        assert (ES : sx e = 1).
        { destruct (Z.lt_ge_cases e 0) as [En|En]; [|unfold sx; rewrite Z.max_r by lia; reflexivity].
          exfalso. unfold bx in Ea. rewrite (Z.max_r e 0) in Ea by lia. rewrite Z.pow_0_r, Z.mul_1_r in Ea.
          assert (a <= m) by (rewrite Ea; apply Z.div_le_upper_bound; nia).
          change (2 ^ 53) with 9007199254740992 in M. lia. }
        rewrite ES. apply Z.mod_1_r. }
      rewrite X. cbn [Z.eqb]. destruct (Z.eqb_spec (- a) (- (9223372036854775808))); [reflexivity|lia].
    + destruct (Z.ltb_spec a (- (9223372036854775808))) as [L|L]; [reflexivity|].
      destruct (Z.ltb_spec (9223372036854775808 - 1) a) as [L2|L2]; [reflexivity|lia].
  - destruct (Z.eqb_spec (bx m e mod sx e) 0) as [Z0|Z0].
    + apply to_string_integer; try assumption. pose proof (Z.div_mod (bx m e) (sx e) ltac:(lia)). lia.
    + unfold to_string. cbn [arg_lt arg_gt arg_int].
      destruct (Z.ltb_spec r 2); [lia|]. destruct (Z.ltb_spec 36 r); [lia|].
      destruct (Z.eqb_spec r 10); [lia|]. cbn [orb]. cbv zeta.
      set (a := bx m e / sx e) in *. assert (0 <= a) by (apply Z.div_pos; lia). clearbody a.
      change (2 ^ 63) with 9223372036854775808 in *.
      destruct (Z.ltb_spec (if g then - a else a) (- (9223372036854775808))) as [L|L]; [destruct g; lia|].
      destruct (Z.ltb_spec (9223372036854775808 - 1) (if g then - a else a)) as [L2|L2]; [destruct g; lia|].
      cbn [orb]. destruct (Z.eqb_spec (bx m e mod sx e) 0); [contradiction|reflexivity].
Qed.
