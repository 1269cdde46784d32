(** Small integers: their decimal is the shortest text; and the lengths of all
    texts. *)
From Coq Require Import ZArith List Bool Lia QArith Qpower Qabs Lqa.
From Verif Require Import DtoaModel DtoaSpec DtoaProofs DtoaText DtoaShort DtoaLayout DtoaMethods.
Import ListNotations.
Local Open Scope Z_scope.

Lemma trailing : forall f n, 0 < n < 10 ^ Z.of_nat f ->
  exists d t, 0 <= t /\ n = d * 10 ^ t /\ d mod 10 <> 0.
Proof.
  induction f as [|f IH]; intros n H; [change (10 ^ Z.of_nat 0) with 1 in H; lia|].
  destruct (Z.eq_dec (n mod 10) 0) as [E|E].
  - pose proof (Z.div_mod n 10 ltac:(lia)) as D. rewrite Nat2Z.inj_succ, Z.pow_succ_r in H by lia.
    destruct (IH (n / 10)) as (d & t & T & En & M); [lia|].
    exists d, (t + 1). split; [lia|]. split; [|exact M]. rewrite pow10_succ by lia. lia.
  - exists n, 0. split; [lia|]. split; [rewrite Z.pow_0_r; ring|exact E].
Qed.

Lemma numeral_tidy : forall d, 0 < d -> d mod 10 <> 0 -> tidy (numeral 10 d).
Proof.
  intros d H M. destruct (numeral_ok 10 d ltac:(lia) ltac:(lia)) as (V & F & N & L).
  split; [exact F|]. split; [exact N|]. split; [apply L, H|].
  destruct (Z.lt_ge_cases d 10).
  - rewrite numeral_base by lia. cbn. lia.
  - rewrite numeral_step by lia. rewrite last_last. exact M.
Qed.

Lemma numeral_length : forall d, 0 < d -> 10 ^ (len (numeral 10 d) - 1) <= d.
Proof.
  intros d H. unfold len. remember (length (numeral 10 d)) as k eqn:K.
  revert d H K. induction k as [|k IH]; intros d H K.
  - cbn. lia.
  - destruct (Z.lt_ge_cases d 10).
    + rewrite numeral_base in K by lia. injection K as ->. cbn. lia.
    + rewrite numeral_step in K by lia. rewrite app_length in K. cbn [length] in K.
      assert (0 < d / 10) by (apply Z.div_str_pos; lia).
      specialize (IH (d / 10) ltac:(assumption) ltac:(lia)).
      destruct (numeral_ok 10 (d / 10) ltac:(lia) ltac:(lia)) as (_ & _ & N & _).
      destruct k as [|k].
      { destruct (numeral 10 (d / 10)); [congruence|cbn [length] in K; lia]. }
      replace (Z.of_nat (S (S k)) - 1) with (Z.of_nat (S k) - 1 + 1) by lia.
      rewrite pow10_succ by lia. pose proof (Z.div_mod d 10 ltac:(lia)).
      pose proof (Z.mod_pos_bound d 10 ltac:(lia)). lia.
Qed.

Lemma bin_double : forall m e, (bin_q m e == bin_q (2 * m) (e - 1))%Q.
Proof.
  intros. unfold bin_q. replace e with ((e - 1) + 1) at 1 by ring.
  rewrite (Qpower_plus _ _ _ two_nz), inject_Z_mult. change ((2 # 1) ^ 1)%Q with (2 # 1)%Q.
  change (inject_Z 2) with (2 # 1)%Q. ring.
Qed.

Lemma bin_lt : forall a b e, a < b -> (bin_q a e < bin_q b e)%Q.
Proof. intros. unfold bin_q. apply Qmult_lt_compat_r; [apply p2_pos|]. rewrite <- Zlt_Qlt. assumption. Qed.

Lemma inside_self : forall m e, inside m e (bin_q m e).
Proof.
  intros m e. unfold inside, below, above. split.
  - destruct (_ && _).
    + rewrite (bin_double m e), (bin_double (2 * m) (e - 1)). replace (e - 1 - 1) with (e - 2) by ring. apply bin_lt. lia.
    + rewrite (bin_double m e). apply bin_lt. lia.
  - rewrite (bin_double m e). apply bin_lt. lia.
Qed.

(** 2^(e-1) is at most 1/4 when e is negative. *)
Lemma half_gap : forall e, e <= -1 -> ((2 # 1) ^ (e - 1) <= 1 # 4)%Q.
Proof.
  intros e H. assert (P : ((2 # 1) ^ (e - 1) * inject_Z (2 ^ (- e - 1)) == 1 # 4)%Q).
  { rewrite inj2 by lia. rewrite <- (Qpower_plus _ _ _ two_nz).
    replace (e - 1 + (- e - 1)) with (-2) by ring. reflexivity. }
  assert (O : (1 <= inject_Z (2 ^ (- e - 1)))%Q).
  { change 1%Q with (inject_Z 1). rewrite <- Zle_Qle. pose proof (pow2_pos (- e - 1) ltac:(lia)). lia. }
  pose proof (p2_pos (e - 1)) as PP. nra.
Qed.

Lemma within_near : forall m e q, e <= -1 -> within m e q ->
  (bin_q m e - (1 # 4) <= q)%Q /\ (q <= bin_q m e + (1 # 4))%Q.
Proof.
  intros m e q H [A B]. pose proof (half_gap e H) as G. pose proof (p2_pos (e - 1)) as PP.
  assert (LO : (bin_q m e - (2 # 1) ^ (e - 1) <= below m e)%Q).
  { unfold below. destruct (_ && _).
    - assert (E : (bin_q m e == bin_q (4 * m) (e - 2))%Q).
      { rewrite (bin_double m e), (bin_double (2 * m) (e - 1)). replace (e - 1 - 1) with (e - 2) by ring.
        replace (2 * (2 * m)) with (4 * m) by ring. reflexivity. }
      assert (T : ((2 # 1) ^ (e - 1) == bin_q 2 (e - 2))%Q).
      { transitivity (bin_q 1 (e - 1)); [unfold bin_q; ring|]. rewrite (bin_double 1 (e - 1)).
        replace (e - 1 - 1) with (e - 2) by ring. reflexivity. }
      rewrite E, T. unfold bin_q. 
      setoid_replace (inject_Z (4 * m) * (2 # 1) ^ (e - 2) - inject_Z 2 * (2 # 1) ^ (e - 2))%Q
        with ((inject_Z (4 * m) - inject_Z 2) * (2 # 1) ^ (e - 2))%Q by ring.
      apply Qmult_le_compat_r; [|apply Qlt_le_weak, p2_pos].
      unfold Qminus. rewrite <- inject_Z_opp, <- inject_Z_plus, <- Zle_Qle. lia.
    - rewrite (bin_double m e). unfold bin_q.
      apply (Qplus_le_l _ _ ((2 # 1) ^ (e - 1))%Q).
      setoid_replace (inject_Z (2 * m) * (2 # 1) ^ (e - 1) - (2 # 1) ^ (e - 1) + (2 # 1) ^ (e - 1))%Q
        with (inject_Z (2 * m) * (2 # 1) ^ (e - 1))%Q by ring.
      setoid_replace (inject_Z (2 * m - 1) * (2 # 1) ^ (e - 1) + (2 # 1) ^ (e - 1))%Q
        with ((inject_Z (2 * m - 1) + inject_Z 1) * (2 # 1) ^ (e - 1))%Q by (change (inject_Z 1) with 1%Q; ring).
      rewrite <- inject_Z_plus. replace (2 * m - 1 + 1) with (2 * m) by ring. apply Qle_refl. }
  assert (HI : (above m e <= bin_q m e + (2 # 1) ^ (e - 1))%Q).
  { unfold above. rewrite (bin_double m e). unfold bin_q. rewrite inject_Z_plus.
    change (inject_Z 1) with 1%Q. ring_simplify. apply Qle_refl. }
  split; lra.
Qed.

Lemma index_small : forall g m e n, valid (Fin g m e) -> array_index (Fin g m e) = Some n -> e <= -1 /\ 0 < n.
Proof.
  intros g m e n V H. pose proof (valid_m _ _ _ V) as M.
  destruct (array_index_value g m e n ltac:(lia) H) as (G & R & E).
  pose proof (sx_pos e) as SP. pose proof (bx_pos m e ltac:(lia)) as BP.
  split; [|nia]. destruct (Z.le_gt_cases e (-1)) as [L|L]; [exact L|exfalso].
  unfold bx, sx in E. rewrite (Z.max_r (- e) 0), Z.pow_0_r, Z.mul_1_r in E by lia.
  destruct V as [V|V]; [|lia].
  pose proof (pow2_pos (Z.max e 0) ltac:(lia)).
  change (2 ^ 52) with 4503599627370496 in V. change 0xffffffff with 4294967295 in R. nia.
Qed.

(** The decimal of an array index is laid out from its shortest digits. *)
Lemma index_shortest : forall g m e n, valid (Fin g m e) -> array_index (Fin g m e) = Some n ->
  exists ds nv, decimal n = string_layout ds nv /\ tidy ds /\ (decimal_value ds nv == bin_q m e)%Q /\
    no_shorter (length ds) (reads_back m e).
Proof.
  intros g m e n V H. pose proof (valid_m _ _ _ V) as M.
  destruct (index_small _ _ _ _ V H) as [E1 NP].
  destruct (array_index_value g m e n ltac:(lia) H) as (G & R & E).
  pose proof (integral_value _ _ _ E) as X.
  destruct (trailing 10 n) as (d & t0 & T0 & En & Dm).
  { change (10 ^ Z.of_nat 10) with 10000000000. lia. }
  pose proof (pow10_pos t0 T0) as PT.
  assert (DP : 0 < d) by nia.
  pose proof (numeral_tidy d DP Dm) as TD. destruct (numeral_ok 10 d ltac:(lia) ltac:(lia)) as (VD & FD & ND & LD).
  set (ds := numeral 10 d) in *.
  assert (DV : (decimal_value ds (len ds + t0) == bin_q m e)%Q).
  { unfold decimal_value. rewrite VD. fold (len ds). replace (len ds + t0 - len ds) with t0 by ring.
    rewrite X, En. unfold dec_q. rewrite inject_Z_mult, inj10 by lia. reflexivity. }
  assert (LL : 10 ^ (len ds - 1) <= d) by (apply numeral_length; lia).
  assert (L1 : 1 <= len ds) by (unfold len; destruct ds; [congruence|cbn [length]; lia]).
  exists ds, (len ds + t0). split; [|split; [exact TD|split; [exact DV|]]].
  - assert (L21 : len ds + t0 <= 21).
    { destruct (Z.le_gt_cases (len ds + t0) 21) as [L|L]; [exact L|exfalso].
      assert (10 ^ 20 <= n).
      { rewrite En. apply Z.le_trans with (10 ^ (len ds - 1) * 10 ^ t0); [|apply Z.mul_le_mono_nonneg_r; lia].
        rewrite <- Z.pow_add_r by lia. apply Z.pow_le_mono_r; lia. }
      change (10 ^ 20) with 100000000000000000000 in *. lia. }
    unfold string_layout. cbv zeta.
    destruct (Z.leb_spec (len ds) (len ds + t0)); [|lia]. destruct (Z.leb_spec (len ds + t0) 21); [|lia].
    cbn [andb]. replace (len ds + t0 - len ds) with t0 by ring.
    rewrite En. rewrite <- VD at 1. unfold zeros.
    replace t0 with (Z.of_nat (Z.to_nat t0)) at 1 by lia. apply decimal_zeros; [exact FD|exact ND|apply LD, DP].
  - intros s t SP K1 SL RB.
    assert (W : within m e (dec_q s t)).
    { destruct RB as [[A B]|[W _]]; [split; apply Qlt_le_weak; assumption|exact W]. }
    destruct (within_near m e _ E1 W) as [W1 W2]. rewrite X in W1, W2. fold (len ds) in SL.
    destruct (Z.lt_ge_cases t t0) as [Lt|Lt].
    + assert (B : ((10 # 1) * dec_q s t <= inject_Z n)%Q).
      { setoid_replace ((10 # 1) * dec_q s t)%Q with (dec_q s (t + 1))
          by (unfold dec_q; rewrite (Qpower_plus _ _ _ ten_nz); change ((10 # 1) ^ 1)%Q with (10 # 1)%Q; ring).
        apply Qle_trans with (dec_q s t0).
        - replace t0 with ((t + 1) + (t0 - t - 1)) by ring. rewrite <- (dec_shift s (t0 - t - 1) (t + 1)) by lia.
          unfold dec_q. apply Qmult_le_compat_r; [|apply Qlt_le_weak, p10_pos].
          rewrite <- Zle_Qle. pose proof (pow10_pos (t0 - t - 1) ltac:(lia)). nia.
        - unfold dec_q. rewrite <- inj10, <- inject_Z_mult, <- Zle_Qle by lia. rewrite En.
          apply Z.mul_le_mono_nonneg_r; lia. }
      assert (N1 : (1 <= inject_Z n)%Q) by (change 1%Q with (inject_Z 1); rewrite <- Zle_Qle; lia).
      lra.
    + assert (DI : (dec_q s t == inject_Z (s * 10 ^ t))%Q).
      { unfold dec_q. rewrite inject_Z_mult, inj10 by lia. reflexivity. }
      rewrite DI in W1, W2.
      assert (EQ : s * 10 ^ t = n).
      { assert (A1 : (inject_Z n < inject_Z (s * 10 ^ t + 1))%Q)
          by (rewrite inject_Z_plus; change (inject_Z 1) with 1%Q; lra).
        assert (A2 : (inject_Z (s * 10 ^ t) < inject_Z (n + 1))%Q)
          by (rewrite inject_Z_plus; change (inject_Z 1) with 1%Q; lra).
        rewrite <- Zlt_Qlt in A1, A2. lia. }
      replace t with (t0 + (t - t0)) in EQ by ring. rewrite Z.pow_add_r in EQ by lia.
      assert (ED : d = s * 10 ^ (t - t0)) by (apply (Z.mul_cancel_r _ _ (10 ^ t0)); lia).
      destruct (Z.eq_dec t t0) as [->|NT].
      * rewrite Z.sub_diag, Z.pow_0_r in ED. lia.
      * apply Dm. rewrite ED. replace (t - t0) with ((t - t0 - 1) + 1) by ring.
        rewrite pow10_succ by lia. replace (s * (10 * 10 ^ (t - t0 - 1))) with (s * 10 ^ (t - t0 - 1) * 10) by ring.
        apply Z.mod_mul. lia.
Qed.

(** ** Lengths *)

Definition fits (n : nat) (r : res) : Prop :=
  match r with Text t => (length t < n)%nat | RangeError => True | Undefined => False end.

Lemma string_fits : forall x, valid x -> fits 27 (of_text (number_to_string x)).
Proof.
  intros [g|g m e|g|] V; [destruct g; vm_compute; lia| |destruct g; vm_compute; lia|vm_compute; lia].
  destruct (array_index (Fin g m e)) as [n|] eqn:A.
  - destruct (string_index _ _ _ _ V A) as [-> _]. cbn [of_text fits].
    pose proof (valid_m _ _ _ V) as M.
    destruct (array_index_value g m e n ltac:(lia) A) as (_ & R & _).
    pose proof (decimal_length 10 n ltac:(change (10 ^ Z.of_nat 10) with 10000000000; lia) ltac:(lia)). lia.
  - destruct (shortest_actual _ _ _ V) as (ds & nv & E & T & L & R & _).
    rewrite (string_fin _ _ _ _ _ V A E). cbn [of_text fits].
    pose proof (signed_length g (string_layout ds nv)). pose proof (string_length ds nv L R). lia.
Qed.

Lemma fits_weaken : forall a b r, (a <= b)%nat -> fits a r -> fits b r.
Proof. intros a b [t| |] H F; cbn in *; try lia; assumption. Qed.

Lemma huge_rounded : forall g m e f, 0 < m -> 0 <= f -> huge (Fin g m e) = false ->
  0 <= round_even (scaled_b m e f) (scaled_s e f) <= 10 ^ (21 + f).
Proof.
  intros g m e f M Hf H. unfold huge in H. apply Z.leb_gt in H.
  pose proof (scaled_s_pos e f) as SP.
  assert (B : 0 <= scaled_b m e f).
  { unfold scaled_b. pose proof (pow2_pos (Z.max e 0) ltac:(lia)). pose proof (pow10_pos (Z.max f 0) ltac:(lia)). nia. }
  assert (L : scaled_b m e f < 10 ^ (21 + f) * scaled_s e f).
  { unfold scaled_b, scaled_s. unfold bx, sx in H. rewrite (Z.max_r (- f) 0), Z.pow_0_r, Z.mul_1_r by lia.
    rewrite (Z.max_l f 0) by lia. rewrite Z.pow_add_r by lia.
    replace (10 ^ 21 * 10 ^ f * 2 ^ Z.max (- e) 0) with (10 ^ 21 * 2 ^ Z.max (- e) 0 * 10 ^ f) by ring.
    apply Z.mul_lt_mono_pos_r; [apply pow10_pos; exact Hf|exact H]. }
  pose proof (Z.div_mod (scaled_b m e f) (scaled_s e f) ltac:(lia)) as E.
  pose proof (Z.mod_pos_bound (scaled_b m e f) (scaled_s e f) SP) as R.
  rewrite (round_even_at _ (scaled_b m e f / scaled_s e f) _ (scaled_b m e f mod scaled_s e f)) by lia.
  assert (Q1 : scaled_b m e f / scaled_s e f < 10 ^ (21 + f)) by (apply Z.div_lt_upper_bound; lia).
  pose proof (Z.div_pos (scaled_b m e f) (scaled_s e f) B SP).
  destruct (_ || _); lia.
Qed.

Lemma fixed_fits : forall x a, valid x -> fits 256 (to_fixed x a).
Proof.
  intros x a V. destruct a as [f| |]; try exact Logic.I.
  destruct ((f <? 0) || (100 <? f)) eqn:C; [unfold to_fixed; rewrite C; exact Logic.I|].
  apply orb_false_iff in C. destruct C as [C1 C2]. apply Z.ltb_ge in C1, C2.
  destruct (negb (finite x) || huge x) eqn:H.
  { unfold to_fixed. destruct (Z.ltb_spec f 0); [lia|]. destruct (Z.ltb_spec 100 f); [lia|]. cbn [orb].
    rewrite H. apply (fits_weaken 27); [lia|]. apply string_fits, V. }
  destruct x as [g|g m e|g|]; try discriminate H.
  - rewrite to_fixed_zero by lia. cbn [fits].
    pose proof (signed_length g (fixed_text 0 f)).
    pose proof (fixed_length 0 f ltac:(split; [lia|apply pow10_pos; lia]) ltac:(lia)). lia.
  - rewrite to_fixed_fin by (try exact V; try exact H; lia). cbn [fits].
    pose proof (valid_m _ _ _ V) as M.
    pose proof (huge_rounded g m e f ltac:(lia) ltac:(lia) H) as B.
    set (N := round_even _ _) in *. clearbody N.
    pose proof (signed_length g (fixed_text N f)).
    assert (P : 10 ^ (21 + f) < 10 ^ 130) by (apply Z.pow_lt_mono_r; lia).
    pose proof (fixed_length N f ltac:(lia) ltac:(lia)). lia.
Qed.

Lemma exponential_length : forall l ex f, (length l <= 101)%nat -> -1000 < ex < 1000 ->
  (length (exponential_text l ex f) <= 107)%nat.
Proof.
  intros l ex f L R. unfold exponential_text. rewrite app_length. pose proof (exponent_length ex R).
  destruct (f =? 0); [lia|]. rewrite app_length. cbn [length]. unfold take, drop.
  rewrite firstn_length, skipn_length. lia.
Qed.

Lemma precision_length : forall l ex p, (length l <= 100)%nat -> -1000 < ex < 1000 ->
  (length (precision_text l ex p) <= 110)%nat.
Proof.
  intros l ex p L R. unfold precision_text, take, drop, zeros. pose proof (exponent_length ex R).
  destruct ((ex <? -6) || (p <=? ex)) eqn:C.
  { rewrite app_length. destruct (p =? 1); [lia|]. rewrite app_length. cbn [length].
    rewrite firstn_length, skipn_length. lia. }
  apply orb_false_iff in C. destruct C as [C _]. apply Z.ltb_ge in C.
  destruct (ex =? p - 1); [lia|].
  destruct (Z.leb_spec 0 ex).
  - rewrite app_length. cbn [length]. rewrite firstn_length, skipn_length. lia.
  - cbn [length]. rewrite app_length, repeat_length. lia.
Qed.

Lemma carried_range : forall m e p n ex, 0 < m -> 1 <= p ->
  carried p (kx m e) (round_even (scaled_b m e (p - 1 - kx m e)) (scaled_s e (p - 1 - kx m e))) = (n, ex) ->
  candidate p n /\ kx m e <= ex <= kx m e + 1.
Proof.
  intros m e p n ex M P H. destruct (even_closest _ _ _ _ _ _ (kx_first m e M) P H) as [C _].
  split; [exact C|]. unfold carried in H. destruct (_ =? _); injection H as _ <-; lia.
Qed.

Lemma zeros_length : forall n, length (zeros n) = Z.to_nat n.
Proof. intros; apply repeat_length. Qed.

Lemma candidate_length : forall p n, 1 <= p -> candidate p n -> (length (decimal n) <= Z.to_nat p)%nat.
Proof.
  intros p n P [A B]. apply decimal_length; [|lia]. rewrite Z2Nat.id by lia.
  pose proof (pow10_pos (p - 1) ltac:(lia)). lia.
Qed.

Lemma exponential_fits : forall x a, valid x -> fits 256 (to_exponential x a).
Proof.
  intros x a V. destruct (finite x) eqn:Fx.
  2:{ unfold to_exponential. rewrite Fx. cbn [negb]. apply (fits_weaken 27); [lia|]. apply string_fits, V. }
  destruct a as [a|].
  - destruct (arg_lt a 0 || arg_gt a 100) eqn:C.
    { unfold to_exponential. rewrite Fx, C. exact Logic.I. }
    destruct a as [f| |]; try discriminate C. cbn [arg_lt arg_gt] in C.
    apply orb_false_iff in C. destruct C as [C1 C2]. apply Z.ltb_ge in C1, C2.
    destruct x as [g|g m e|g|]; try discriminate Fx.
    + rewrite to_exponential_zero by lia. cbn [fits].
      pose proof (exponential_length (zeros (f + 1)) 0 f ltac:(rewrite zeros_length; lia) ltac:(lia)). lia.
    + destruct (to_exponential_fin g m e f V ltac:(lia)) as (n & ex & E & ->). cbn [fits].
      pose proof (valid_m _ _ _ V) as M. pose proof (k_range _ _ _ V) as K.
      replace (f - kx m e) with (f + 1 - 1 - kx m e) in E by ring.
      destruct (carried_range m e (f + 1) n ex ltac:(lia) ltac:(lia) E) as [Cn R].
      pose proof (candidate_length (f + 1) n ltac:(lia) Cn).
      pose proof (exponential_length (decimal n) ex f ltac:(lia) ltac:(lia)).
      pose proof (signed_length g (exponential_text (decimal n) ex f)). lia.
  - destruct x as [g|g m e|g|]; try discriminate Fx.
    + destruct g; vm_compute; lia.
    + destruct (shortest_actual _ _ _ V) as (ds & nv & E & T & L & R & _).
      rewrite (to_exponential_all _ _ _ _ _ V E). cbn [fits].
      pose proof (exponential_length (text ds) (nv - 1) (len ds - 1) ltac:(rewrite text_length; lia) ltac:(lia)).
      pose proof (signed_length g (exponential_text (text ds) (nv - 1) (len ds - 1))). lia.
Qed.

Lemma precision_fits : forall x a, valid x -> fits 256 (to_precision x a).
Proof.
  intros x a V. destruct a as [a|].
  2:{ apply (fits_weaken 27); [lia|]. apply string_fits, V. }
  destruct (finite x) eqn:Fx.
  2:{ unfold to_precision. rewrite Fx. cbn [negb]. apply (fits_weaken 27); [lia|]. apply string_fits, V. }
  destruct (arg_lt a 1 || arg_gt a 100) eqn:C.
  { unfold to_precision. rewrite Fx, C. exact Logic.I. }
  destruct a as [p| |]; try discriminate C. cbn [arg_lt arg_gt] in C.
  apply orb_false_iff in C. destruct C as [C1 C2]. apply Z.ltb_ge in C1, C2.
  destruct x as [g|g m e|g|]; try discriminate Fx.
  - rewrite to_precision_zero by lia. cbn [fits].
    pose proof (precision_length (zeros p) 0 p ltac:(rewrite zeros_length; lia) ltac:(lia)). lia.
  - destruct (to_precision_fin g m e p V ltac:(lia)) as (n & ex & E & ->). cbn [fits].
    pose proof (valid_m _ _ _ V) as M. pose proof (k_range _ _ _ V) as K.
    destruct (carried_range m e p n ex ltac:(lia) ltac:(lia) E) as [Cn R].
    pose proof (candidate_length p n ltac:(lia) Cn).
    pose proof (precision_length (decimal n) ex p ltac:(lia) ltac:(lia)).
    pose proof (signed_length g (precision_text (decimal n) ex p)). lia.
Qed.
