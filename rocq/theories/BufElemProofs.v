From Coq Require Import ZArith List Bool Lia.
Import ListNotations.
From Verif Require Import StrModel BigModel BigSpec BigTextProofs NumModel NumSpec NumProofs BufModel BufSpec BufElemSpec BufProofs.
Local Open Scope Z_scope.

Lemma int_double_of : forall z, Z.abs z < 2 ^ 53 -> int_double (dbl_of_int z) z.
Proof.
  intros z H. destruct (Z.eq_dec z 0) as [-> | N]; [left; split; reflexivity|].
  right. split; [exact N|]. destruct (dbl_of_int_double z H N) as (e & D & _).
  eexists _, _, e. split; [exact D|]. rewrite <- (dval_double _ _ _ _ D). apply dval_of_int. exact H.
Qed.

Lemma clamped_spec : forall b, 0 <= b < 2 ^ 64 -> clamped b (rjs_to_uint8_clamp b) /\ 0 <= rjs_to_uint8_clamp b <= 255.
Proof.
  intros b H. destruct (clamp_special b) as (A & B & C). destruct (classify b H) as [(s & m & e & D) | [([] & D) | D]].
  - destruct (clamp_spec b s m e D) as (L & U & N).
    set (v := with_sign s (m * 2 ^ (e + 1074))) in *.
    destruct (Z.le_gt_cases v 0) as [X | X]; [rewrite (L X); split; [apply (Cl_low b s m e D X) | lia]|].
    destruct (Z.le_gt_cases (255 * 2 ^ 1074) v) as [Y | Y]; [rewrite (U Y); split; [apply (Cl_high b s m e D Y) | lia]|].
    specialize (N ltac:(lia)). destruct (double_shape _ _ _ _ D) as [Hm He].
    assert (NN : 0 <= m * 2 ^ (e + 1074)) by (apply Z.mul_nonneg_nonneg; [lia | apply Z.pow_nonneg; lia]).
    destruct s; [unfold v in X; cbn [with_sign] in X; exfalso; lia|].
    split; [|apply N]. apply (Cl_near b m e _ D); [unfold v in *; cbn [with_sign] in *; lia | apply N | apply N].
  - rewrite (A D). split; [apply Cl_ninf; exact D | lia].
  - rewrite (B D). split; [apply Cl_pinf; exact D | lia].
  - rewrite (C D). split; [apply Cl_nan; exact D | lia].
Qed.

Lemma to_signed_mod : forall k z, 0 < k -> to_signed k (z mod 2 ^ k) = to_signed k z.
Proof.
  intros k z H. unfold to_signed. f_equal. apply Zplus_mod_idemp_l.
Qed.

Lemma signed_small : forall k z, 0 < k -> - 2 ^ (k - 1) <= z < 2 ^ (k - 1) -> to_signed k z = z.
Proof.
  intros k z H R. symmetry. apply modular_s_eq; [exact H|]. split; [exact R|]. exists 0. lia.
Qed.

Lemma modular_refl_s : forall k z, 0 < k -> modular_s k z (to_signed k (z mod 2 ^ k)).
Proof. intros. rewrite to_signed_mod by assumption. apply signed_modular. assumption. Qed.

Lemma nan_false : forall b, is_nan b = false -> ~ nan b.
Proof. intros b H N. destruct (nan_fields _ N). congruence. Qed.
Lemma nan_true : forall b, 0 <= b < 2 ^ 64 -> is_nan b = true -> nan b.
Proof.
  intros b R H. destruct (classify b R) as [(s & m & e & D) | [(s & D) | D]]; [| |exact D].
  - destruct (double_fields _ _ _ _ D) as (_ & A & _). congruence.
  - destruct (infinite_fields _ _ D) as (_ & A & _). congruence.
Qed.

Lemma wrap64_signed : forall z, wrap64 z = to_signed 64 z.
Proof. reflexivity. Qed.

Lemma signed64_min : forall z, to_signed 64 z = - 2 ^ 63 <-> z mod 2 ^ 64 = 2 ^ 63.
Proof.
  intro z. destruct (signed_modular 64 z ltac:(lia)) as (R & q & E).
  set (r := to_signed 64 z) in *. clearbody r. split.
  - intros ->. rewrite E. change (64 - 1) with 63. rewrite Z.mod_add by lia. reflexivity.
  - intro H. change (64 - 1) with 63 in R.
    assert (M : r mod 2 ^ 64 = 2 ^ 63) by (rewrite E, Z.mod_add in H by lia; exact H).
    destruct (Z.lt_ge_cases r 0) as [L | L].
    + assert ((r + 1 * 2 ^ 64) mod 2 ^ 64 = r + 2 ^ 64).
      { rewrite Z.mod_small; [lia|]. change (2 ^ 63) with 9223372036854775808 in *. change (2 ^ 64) with 18446744073709551616. lia. }
      rewrite Z.mod_add in H0 by lia. change (2 ^ 63) with 9223372036854775808 in *. change (2 ^ 64) with 18446744073709551616 in *. lia.
    + rewrite Z.mod_small in M by (change (2 ^ 63) with 9223372036854775808 in *; change (2 ^ 64) with 18446744073709551616; lia). lia.
Qed.

Lemma mod_mod_pow : forall z k, 0 <= k -> z mod 2 ^ k mod 2 ^ k = z mod 2 ^ k.
Proof. intros. apply Z.mod_mod. apply Z.pow_nonzero; lia. Qed.

Lemma get_bigint64 : forall u, 0 <= u < 2 ^ 64 ->
  (u <> 2 ^ 63 -> exists y, (match from_int64 (to_signed 64 u) with
                | None => SUB
                | Some b => match to_int64 b with None => SUB | Some _ => SOk (JBig b) end
                end) = SOk (JBig y) /\ normal y /\ value y = to_signed 64 u /\ to_int64 y = Some (to_signed 64 u)) /\
  (u = 2 ^ 63 -> (match from_int64 (to_signed 64 u) with
                | None => SUB
                | Some b => match to_int64 b with None => SUB | Some _ => SOk (JBig b) end
                end) = SUB (A := jnum)).
Proof.
  intros u H. split.
  - intro N.
    assert (X : to_signed 64 u <> - 2 ^ 63) by (rewrite signed64_min; rewrite Z.mod_small by lia; exact N).
    destruct (signed_modular 64 u ltac:(lia)) as (R & _). change (64 - 1) with 63 in R.
    destruct (from_int64_spec (to_signed 64 u)) as (y & E & Ny & V); [lia|]. rewrite E.
    assert (T : to_int64 y = Some (to_signed 64 u)).
    { rewrite to_int64_spec, V by exact Ny.
      assert (Q : (to_signed 64 u mod 2 ^ 64 =? 2 ^ 63) = false).
      { apply Z.eqb_neq. rewrite <- signed64_min. rewrite signed_small; [exact X | lia | exact R]. }
      rewrite Q, andb_false_r. f_equal. rewrite wrap64_signed. apply signed_small; [lia | exact R]. }
    rewrite T. exists y. repeat split; auto; apply Ny.
  - intros ->. reflexivity.
Qed.

Definition sgn_of (t : etype) (u : Z) : Z :=
  match int_type t with Some (k, true) => to_signed k u | _ => u end.

(** what reading gives for the unsigned integer of the bytes *)
Lemma get_int : forall t k sg is_le bs, int_type t = Some (k, sg) ->
  get_raw t is_le bs = SOk (JNum (dbl_of_int (sgn_of t (word is_le bs)))).
Proof. intros t k sg is_le bs H. destruct t; try discriminate H; reflexivity. Qed.

Lemma int_width : forall t k sg, int_type t = Some (k, sg) -> k = 8 * Z.of_nat (esize t) /\ 0 < k <= 32.
Proof. intros t k sg H. destruct t; try discriminate H; injection H as <- <-; cbn; lia. Qed.

Lemma sgn_modular : forall t k sg z, int_type t = Some (k, sg) -> modular k sg z (sgn_of t (z mod 2 ^ k)).
Proof.
  intros t k sg z H. destruct (int_width _ _ _ H) as [_ K]. unfold sgn_of. rewrite H. destruct sg; cbn [modular].
  - apply modular_refl_s. lia.
  - apply unsigned_modular. lia.
Qed.

Lemma modular_small : forall k sg z r, 0 < k <= 32 -> modular k sg z r -> Z.abs r < 2 ^ 53.
Proof.
  intros k sg z r K H. assert (2 ^ k <= 2 ^ 32) by (apply Z.pow_le_mono_r; lia).
  assert (2 ^ (k - 1) <= 2 ^ 32) by (apply Z.pow_le_mono_r; lia).
  change (2 ^ 32) with 4294967296 in *. change (2 ^ 53) with 9007199254740992.
  destruct sg, H as [R _]; lia.
Qed.

Lemma raw_int : forall t k sg b n, int_type t = Some (k, sg) -> truncated b n ->
  (fits64 n -> raw_word t (JNum b) = SOk (sgn_of t (n mod 2 ^ k))) /\ (~ fits64 n -> raw_word t (JNum b) = SUB).
Proof.
  intros t k sg b n H T.
  assert (S8 : forall k, 0 < k -> (fits64 n -> to_int_with (to_signed k) b = Some (to_signed k (n mod 2 ^ k))) /\ (~ fits64 n -> to_int_with (to_signed k) b = None)).
  { intros j Hj. destruct (to_int_signed j b n Hj T) as [A B]. split; [|exact B]. intro F. destruct (A F) as (r & E & M).
    rewrite E. f_equal. rewrite to_signed_mod by lia. apply modular_s_eq; assumption. }
  assert (U8 : forall k, 0 < k -> (fits64 n -> to_int_with (to_unsigned k) b = Some (n mod 2 ^ k)) /\ (~ fits64 n -> to_int_with (to_unsigned k) b = None)).
  { intros j Hj. destruct (to_int_unsigned j b n ltac:(lia) T) as [A B]. split; [|exact B]. intro F. destruct (A F) as (r & E & M).
    rewrite E. f_equal. apply modular_u_eq; [lia | assumption]. }
  destruct t; try discriminate H; injection H as <- <-; cbn [raw_word];
    unfold rjs_to_int8, rjs_to_uint8, rjs_to_int16, rjs_to_uint16, rjs_to_int32, rjs_to_uint32, sgn_of; cbn [int_type];
    (split; intro F;
     [first [rewrite (proj1 (S8 8 eq_refl) F) | rewrite (proj1 (S8 16 eq_refl) F) | rewrite (proj1 (S8 32 eq_refl) F)
            |rewrite (proj1 (U8 8 eq_refl) F) | rewrite (proj1 (U8 16 eq_refl) F) | rewrite (proj1 (U8 32 eq_refl) F)]
     |first [rewrite (proj2 (S8 8 eq_refl) F) | rewrite (proj2 (S8 16 eq_refl) F) | rewrite (proj2 (S8 32 eq_refl) F)
            |rewrite (proj2 (U8 8 eq_refl) F) | rewrite (proj2 (U8 16 eq_refl) F) | rewrite (proj2 (U8 32 eq_refl) F)]];
     reflexivity).
Qed.

Lemma sgn_mod : forall t k sg u, int_type t = Some (k, sg) -> sgn_of t (sgn_of t (u mod 2 ^ k) mod 2 ^ k) = sgn_of t (u mod 2 ^ k).
Proof.
  intros t k sg u H. destruct (int_width _ _ _ H) as [_ K]. unfold sgn_of. rewrite H. destruct sg.
  - rewrite !to_signed_mod by lia. destruct (signed_modular k u ltac:(lia)) as [R _]. apply signed_small; [lia | exact R].
  - apply mod_mod_pow. lia.
Qed.

(** ** store, then load *)
Lemma set_get_raw : forall t is_le v, well_typed t v ->
  (defined_for t v -> exists bs w, set_raw t is_le v = SOk bs /\ get_raw t is_le bs = SOk w /\ converted t v w) /\
  (~ defined_for t v -> (do bs <- set_raw t is_le v; get_raw t is_le bs) = SUB).
Proof.
  intros t is_le v W. unfold set_raw.
  destruct (int_type t) as [[k sg]|] eqn:IT.
  { destruct v as [b|x]; [|destruct t; try discriminate IT; destruct W].
    assert (Wb : 0 <= b < 2 ^ 64) by (destruct t; try discriminate IT; exact W).
    destruct (truncated_total b Wb) as [n T]. destruct (raw_int t k sg b n IT T) as [A B].
    assert (DF : defined_for t (JNum b) <-> fits64 n).
    { unfold fits64. destruct t; try discriminate IT; cbn [defined_for]; (split;
        [intro X; apply X; exact T | intros X n' T'; rewrite (truncated_fun _ _ _ T' T); exact X]). }
    rewrite DF. split; intro F.
    - rewrite (A F). cbn [sbind]. eexists _, _. split; [reflexivity|]. rewrite (get_int t k sg) by exact IT.
      rewrite word_bytes. destruct (int_width _ _ _ IT) as [Kw K]. rewrite <- Kw. rewrite (sgn_mod t k sg) by exact IT.
      split; [reflexivity|]. pose proof (sgn_modular t k sg n IT) as M.
      apply (Cv_int t k sg b n (sgn_of t (n mod 2 ^ k))); try assumption.
      apply int_double_of. apply (modular_small k sg n); assumption.
    - rewrite (B F). reflexivity. }
  destruct t; try discriminate IT; destruct v as [b|x]; try (destruct W; fail); cbn [well_typed] in W; cbn [raw_word defined_for].
  - (* clamped *)
    split; [intros _ | tauto]. cbn [sbind]. eexists _, _. split; [reflexivity|].
    destruct (clamped_spec b W) as [C R]. cbn [get_raw esize]. rewrite word_bytes. change (8 * Z.of_nat 1) with 8.
    rewrite Z.mod_small by (change (2 ^ 8) with 256; lia). split; [reflexivity|].
    apply (Cv_clamp b (rjs_to_uint8_clamp b)); [exact C|]. apply int_double_of. change (2 ^ 53) with 9007199254740992. lia.
  - (* biguint *)
    split; intro F.
    + rewrite to_uint64_spec by assumption. cbn [of_opt sbind]. eexists _, _. split; [reflexivity|].
      cbn [get_raw esize]. rewrite word_bytes. change (8 * Z.of_nat 8) with 64. rewrite mod_mod_pow by lia. split; [reflexivity|].
      pose proof (Z.mod_pos_bound (value x) (2 ^ 64) ltac:(lia)) as MB.
      destruct (from_uint64_spec _ MB) as [N V]. apply Cv_u64; [exact N|]. rewrite V. apply unsigned_modular. lia.
    + assert (N : value x < 0 /\ value x mod 2 ^ 64 = 2 ^ 63).
      { destruct (Z.lt_ge_cases (value x) 0); [|exfalso; apply F; left; lia].
        destruct (Z.eq_dec (value x mod 2 ^ 64) (2 ^ 63)); [auto | exfalso; apply F; right; assumption]. }
      unfold to_uint64. rewrite to_int64_spec by exact W. rewrite (proj2 (Z.ltb_lt _ _) (proj1 N)), (proj2 (Z.eqb_eq _ _) (proj2 N)). reflexivity.
  - (* bigint *)
    rewrite to_int64_spec by exact W. rewrite wrap64_signed.
    assert (MZ : to_signed 64 (value x) mod 2 ^ 64 = value x mod 2 ^ 64).
    { destruct (signed_modular 64 (value x) ltac:(lia)) as (_ & q & E). rewrite E at 2. rewrite Z.mod_add by lia. reflexivity. }
    pose proof (Z.mod_pos_bound (value x) (2 ^ 64) ltac:(lia)) as MB.
    destruct (get_bigint64 _ MB) as [GA GB]. rewrite (to_signed_mod 64 (value x)) in GA, GB by lia.
    split; intro F.
    + rewrite (proj2 (Z.eqb_neq _ _) F), andb_false_r. cbn [of_opt sbind]. destruct (GA F) as (y & E & Ny & V & _).
      eexists _, (JBig y). split; [reflexivity|]. cbn [get_raw esize]. rewrite word_bytes. change (8 * Z.of_nat 8) with 64.
      rewrite MZ, to_signed_mod by lia. split; [exact E|]. apply Cv_s64; [exact Ny|]. rewrite V. apply signed_modular. lia.
    + assert (N : value x mod 2 ^ 64 = 2 ^ 63) by (destruct (Z.eq_dec (value x mod 2 ^ 64) (2 ^ 63)); [assumption | contradiction]).
      destruct ((value x <? 0) && (value x mod 2 ^ 64 =? 2 ^ 63)); [reflexivity|]. cbn [of_opt sbind get_raw esize].
      rewrite word_bytes. change (8 * Z.of_nat 8) with 64. rewrite MZ, to_signed_mod by lia. exact (GB N).
  - (* float32 *)
    split; [intros _ | tauto]. cbn [sbind]. eexists _, _. split; [reflexivity|].
    destruct (fround_spec b W) as [R FR]. cbn [get_raw esize]. rewrite word_bytes. change (8 * Z.of_nat 4) with 32.
    rewrite Z.mod_small by exact R. split; [reflexivity|]. apply Cv_f32. exact FR.
  - (* float64 *)
    split; [intros _ | tauto]. cbn [sbind]. eexists _, _. split; [reflexivity|].
    cbn [get_raw esize]. rewrite word_bytes. change (8 * Z.of_nat 8) with 64. rewrite Z.mod_small by exact W.
    split; [reflexivity|]. destruct (is_nan b) eqn:E; [apply Cv_nan, nan_true; assumption | apply Cv_f64, nan_false; exact E].
Qed.

(** ** meaning of the bytes *)
Lemma get_meaning : forall t is_le bs, Forall is_byte bs -> length bs = esize t ->
  (t = BIGINT64 -> little (in_order is_le bs) <> 2 ^ 63) ->
  exists v, get_raw t is_le bs = SOk v /\ element t (little (in_order is_le bs)) v.
Proof.
  intros t is_le bs H L NM. pose proof (word_little is_le bs H) as WL.
  pose proof (little_range _ (in_order_bytes is_le _ H)) as R. rewrite in_order_length, L in R.
  set (u := little (in_order is_le bs)) in *. clearbody u.
  destruct (int_type t) as [[k sg]|] eqn:IT.
  { rewrite (get_int t k sg) by exact IT. rewrite WL. eexists. split; [reflexivity|].
    destruct (int_width _ _ _ IT) as [Kw K]. rewrite <- Kw in R.
    pose proof (sgn_modular t k sg u IT) as M. rewrite Z.mod_small in M by exact R.
    apply (El_int t k sg u (sgn_of t u)); try assumption. apply int_double_of. apply (modular_small k sg u); assumption. }
  destruct t; try discriminate IT; cbn [get_raw]; rewrite WL; cbn [esize] in R.
  - eexists. split; [reflexivity|]. apply El_clamp, int_double_of. change (8 * Z.of_nat 1) with 8 in R. change (2 ^ 8) with 256 in R. change (2 ^ 53) with 9007199254740992. lia.
  - eexists. split; [reflexivity|]. change (8 * Z.of_nat 8) with 64 in R. destruct (from_uint64_spec u R) as [N V]. apply El_u64; assumption.
  - change (8 * Z.of_nat 8) with 64 in R. destruct (proj1 (get_bigint64 u R) (NM eq_refl)) as (y & E & Ny & V & _).
    exists (JBig y). split; [exact E|]. apply El_s64; [exact Ny|]. rewrite V. apply signed_modular. lia.
  - change (8 * Z.of_nat 4) with 32 in R. eexists. split; [reflexivity|].
    destruct (single_classify u R) as [(s & m & e & S) | [(s & S) | S]].
    + destruct (single_fields _ _ _ _ S) as (N & _ & m' & e' & D & E). rewrite N. apply (El_f32 u s m e _ m' e'); assumption.
    + destruct (single_inf_fields _ _ S) as (N & I). rewrite N. apply (El_f32_inf u s); assumption.
    + rewrite (single_nan_fields _ S). apply El_f32_nan. exact S.
  - change (8 * Z.of_nat 8) with 64 in R. eexists. split; [reflexivity|].
    destruct (is_nan u) eqn:E; [apply El_f64_nan, nan_true; assumption | apply El_f64, nan_false; exact E].
Qed.

(** ** load, then store *)
Lemma float_back : forall f s m e, single_bits f s m e -> double_to_float (float_to_double f) = f.
Proof.
  intros f s m e H. destruct (single_fields _ _ _ _ H) as (_ & _ & m' & e' & D & E).
  destruct (double_fields _ _ _ _ D) as (S & A & B & _). pose proof (dmag_double _ _ _ _ D) as MG. rewrite E in MG.
  unfold double_to_float. rewrite S, A, B, MG. cbv zeta.
  assert (K : forall q g, 925 <= g <= 1178 -> 0 <= q < 2 ^ 24 -> (g = 925 \/ 2 ^ 23 <= q) ->
    Z.max (Z.log2 (q * 2 ^ g) - 23) 925 = g /\ round_half_even (q * 2 ^ g) (2 ^ g) = q).
  { intros q g Hg Hq Hn. assert (P : 0 < 2 ^ g) by (apply Z.pow_pos_nonneg; lia). split.
    - destruct (Z.eq_dec q 0) as [-> | NZ]; [rewrite Z.mul_0_l; change (Z.log2 0) with 0; lia|].
      rewrite <- Z.shiftl_mul_pow2 by lia. rewrite Z.log2_shiftl by lia.
      assert (Z.log2 q < 24) by (apply Z.log2_lt_pow2; lia). pose proof (Z.log2_nonneg q).
      destruct Hn as [-> | Hn]; [lia|]. assert (23 <= Z.log2 q) by (apply Z.log2_le_pow2; lia). lia.
    - unfold round_half_even. rewrite Z.div_mul, Z.mod_mul by lia. destruct (Z.ltb_spec (2 * 0) (2 ^ g)); [reflexivity | lia]. }
  assert (SG : (if s then 2 ^ 31 else 0) = (if s then 1 else 0) * 2 ^ 31) by (destruct s; reflexivity). rewrite SG.
  destruct H as [s E' M HE HM | s M HM].
  - destruct (K (2 ^ 23 + M) (E' - 150 + 1074)) as [-> ->]; [lia | change (2 ^ 24) with (2 * 2 ^ 23); lia | right; lia |].
    rewrite Z.min_l by (change (2 ^ 23) with 8388608 in *; lia). change (2 ^ 23) with 8388608 in *. lia.
  - destruct (K M (-149 + 1074)) as [-> ->]; [lia | change (2 ^ 24) with (2 * 2 ^ 23); lia | left; lia |].
    rewrite Z.min_l by (change (2 ^ 23) with 8388608 in *; lia). change (2 ^ 23) with 8388608 in *. lia.
Qed.

Lemma infinite_back : forall f s, single_inf f s -> double_to_float (float_to_double f) = f.
Proof.
  intros f s H. destruct (single_inf_fields _ _ H) as (_ & I). destruct (infinite_fields _ _ I) as (S & A & B & _).
  unfold double_to_float. rewrite S, A, B. rewrite H. destruct s; reflexivity.
Qed.

Lemma int_fits : forall z, Z.abs z < 2 ^ 53 -> fits64 z.
Proof. intros z H. unfold fits64. change (2 ^ 53) with 9007199254740992 in H. change (2 ^ 63) with 9223372036854775808. lia. Qed.

Lemma clamp_int : forall z, 0 <= z <= 255 -> rjs_to_uint8_clamp (dbl_of_int z) = z.
Proof.
  intros z H. destruct (Z.eq_dec z 0) as [-> | N]; [reflexivity|].
  assert (HZ : Z.abs z < 2 ^ 53) by (change (2 ^ 53) with 9007199254740992; lia).
  destruct (dbl_of_int_double z HZ N) as (e & D & _). destruct (double_fields _ _ _ _ D) as (_ & A & B & _).
  unfold rjs_to_uint8_clamp. rewrite A, B, dval_of_int by exact HZ. pose proof unit_pos as U.
  rewrite Z.div_mul by lia.
  destruct (Z.ltb_spec (z * unit) 0); [nia|]. destruct (Z.ltb_spec (255 * unit) (z * unit)); [nia|].
  destruct (Z.ltb_spec ((2 * z + 1) * unit) (2 * (z * unit))); [nia|].
  destruct (Z.ltb_spec (2 * (z * unit)) ((2 * z + 1) * unit)); [reflexivity | nia].
Qed.

Lemma bytes_mod : forall is_le n v w, v mod 2 ^ (8 * Z.of_nat n) = w mod 2 ^ (8 * Z.of_nat n) -> bytes is_le n v = bytes is_le n w.
Proof.
  intros is_le n v w H. rewrite !bytes_in_order. f_equal.
  rewrite <- (bytes_little (le_bytes n v)), <- (bytes_little (le_bytes n w)) by apply le_bytes_byte.
  rewrite !le_bytes_length, !little_bytes, H. reflexivity.
Qed.

Definition not_nan (v : jnum) : Prop := v <> JNum 0x7ff8000000000000.

Lemma get_set_raw : forall t is_le bs v, Forall is_byte bs -> length bs = esize t ->
  get_raw t is_le bs = SOk v -> not_nan v -> set_raw t is_le v = SOk bs.
Proof.
  intros t is_le bs v H L G NN.
  pose proof (little_range _ (in_order_bytes is_le _ H)) as R. rewrite in_order_length, L, <- word_little in R by exact H.
  pose proof (bytes_word is_le bs H) as BW. rewrite L in BW.
  assert (K : forall w, w mod 2 ^ (8 * Z.of_nat (esize t)) = word is_le bs -> raw_word t v = SOk w -> set_raw t is_le v = SOk bs).
  { intros w E RW. unfold set_raw. rewrite RW. cbn [sbind]. f_equal. rewrite <- BW. apply bytes_mod. rewrite E. symmetry. apply Z.mod_small. exact R. }
  set (u := word is_le bs) in *.
  destruct (int_type t) as [[k sg]|] eqn:IT.
  { rewrite (get_int t k sg) in G by exact IT. fold u in G. injection G as <-.
    destruct (int_width _ _ _ IT) as [Kw Kb]. rewrite <- Kw in *.
    pose proof (sgn_modular t k sg u IT) as M. rewrite Z.mod_small in M by exact R.
    pose proof (modular_small k sg u _ Kb M) as SM.
    destruct (raw_int t k sg _ _ IT (truncated_of_int _ SM)) as [A _]. specialize (A (int_fits _ SM)).
    refine (K _ _ A).
    assert (MM : forall z, sgn_of t z mod 2 ^ k = z mod 2 ^ k).
    { intro z. unfold sgn_of. rewrite IT. destruct sg; [|reflexivity].
      destruct (signed_modular k z ltac:(lia)) as (_ & q & E). rewrite E at 2. rewrite Z.mod_add by (apply Z.pow_nonzero; lia). reflexivity. }
    rewrite !MM. rewrite ?mod_mod_pow by lia. apply Z.mod_small. exact R. }
  destruct t; try discriminate IT; cbn [get_raw] in G; fold u in G; cbn [esize] in *.
  - injection G as <-. apply (K u); [apply Z.mod_small; exact R|]. cbn [raw_word]. f_equal. apply clamp_int.
    change (8 * Z.of_nat 1) with 8 in R. change (2 ^ 8) with 256 in R. lia.
  - injection G as <-. change (8 * Z.of_nat 8) with 64 in *. destruct (from_uint64_spec u R) as [N V].
    apply (K u); [apply Z.mod_small; exact R|]. cbn [raw_word]. rewrite to_uint64_spec, V by (auto; lia).
    rewrite Z.mod_small by exact R. reflexivity.
  - change (8 * Z.of_nat 8) with 64 in *. destruct (get_bigint64 u R) as [GA GB].
    destruct (Z.eq_dec u (2 ^ 63)) as [E | N]; [rewrite (GB E) in G; discriminate G|].
    destruct (GA N) as (y & E & Ny & V & T). rewrite E in G. injection G as <-.
    apply (K (to_signed 64 u)).
    + destruct (signed_modular 64 u ltac:(lia)) as (_ & q & Eq). transitivity (u mod 2 ^ 64); [|apply Z.mod_small; exact R].
      rewrite Eq at 2. rewrite Z.mod_add by lia. reflexivity.
    + cbn [raw_word]. rewrite T. reflexivity.
  - change (8 * Z.of_nat 4) with 32 in *. injection G as <-.
    assert (NF : f_is_nan u = false) by (destruct (f_is_nan u); [exfalso; apply NN; reflexivity | reflexivity]).
    apply (K u); [apply Z.mod_small; exact R|]. rewrite NF. cbn [raw_word]. f_equal.
    destruct (single_classify u R) as [(s & m & e & S) | [(s & S) | S]].
    + apply (float_back u s m e S).
    + apply (infinite_back u s S).
    + rewrite (single_nan_fields _ S) in NF. discriminate NF.
  - change (8 * Z.of_nat 8) with 64 in *. injection G as <-.
    assert (NF : is_nan u = false) by (destruct (is_nan u); [exfalso; apply NN; reflexivity | reflexivity]).
    apply (K u); [apply Z.mod_small; exact R|]. rewrite NF. reflexivity.
Qed.

(** ** in a buffer *)
Lemma set_raw_shape : forall t is_le v bs, set_raw t is_le v = SOk bs -> length bs = esize t /\ Forall is_byte bs.
Proof.
  intros t is_le v bs H. unfold set_raw in H. destruct (raw_word t v); try discriminate H. injection H as <-.
  rewrite bytes_in_order, in_order_length, le_bytes_length. split; [reflexivity|]. apply in_order_bytes, le_bytes_byte.
Qed.

Lemma set_value_shape : forall buf off t v is_le buf', set_value buf off t v is_le = SOk buf' ->
  exists bs, set_raw t is_le v = SOk bs /\ length bs = esize t /\ (off + esize t <= length buf)%nat /\
    buf' = firstn off buf ++ bs ++ skipn (off + esize t) buf.
Proof.
  intros buf off t v is_le buf' H. unfold set_value in H.
  destruct (Nat.leb_spec (off + esize t) (length buf)); [|discriminate H].
  destruct (set_raw t is_le v) as [bs| |] eqn:E; try discriminate H. cbn [sbind] in H. injection H as <-.
  exists bs. destruct (set_raw_shape _ _ _ _ E). auto.
Qed.

Lemma firstn_skipn_mid : forall A (a b c : list A) n m, length a = n -> length b = m ->
  firstn m (skipn n (a ++ b ++ c)) = b.
Proof.
  intros A a b c n m Ha Hb. rewrite skipn_app, Ha, Nat.sub_diag, skipn_all2 by lia. cbn [app skipn].
  rewrite firstn_app, Hb, Nat.sub_diag, firstn_all2 by lia. cbn [firstn]. apply app_nil_r.
Qed.

Lemma set_get : forall buf off t v is_le, (off + esize t <= length buf)%nat -> well_typed t v ->
  (defined_for t v -> exists buf' w, set_value buf off t v is_le = SOk buf' /\
     get_value buf' off t is_le = SOk w /\ converted t v w) /\
  (~ defined_for t v -> (do buf' <- set_value buf off t v is_le; get_value buf' off t is_le) = SUB).
Proof.
  intros buf off t v is_le B W. destruct (set_get_raw t is_le v W) as [P Q].
  assert (SV : forall bs, set_raw t is_le v = SOk bs ->
     set_value buf off t v is_le = SOk (firstn off buf ++ bs ++ skipn (off + esize t) buf) /\
     get_value (firstn off buf ++ bs ++ skipn (off + esize t) buf) off t is_le = get_raw t is_le bs).
  { intros bs E. destruct (set_raw_shape _ _ _ _ E) as [L _]. unfold set_value, get_value.
    rewrite (proj2 (Nat.leb_le _ _) B), E. cbn [sbind]. split; [reflexivity|].
    assert (LF : length (firstn off buf) = off) by (rewrite firstn_length; lia).
    rewrite firstn_skipn_mid by assumption.
    rewrite !app_length, LF, L, skipn_length. destruct (Nat.leb_spec (off + esize t) (off + (esize t + (length buf - (off + esize t))))); [reflexivity | lia]. }
  split; intro D.
  - destruct (P D) as (bs & w & E & G & C). destruct (SV bs E) as [S1 S2]. eexists _, w. split; [exact S1|]. split; [rewrite S2; exact G | exact C].
  - specialize (Q D). destruct (set_raw t is_le v) as [bs| |] eqn:E.
    + destruct (SV bs eq_refl) as [S1 S2]. rewrite S1. cbn [sbind] in *. rewrite S2. exact Q.
    + discriminate Q.
    + unfold set_value. rewrite (proj2 (Nat.leb_le _ _) B), E. reflexivity.
Qed.

Lemma set_frame : forall buf off t v is_le buf', set_value buf off t v is_le = SOk buf' ->
  length buf' = length buf /\
  (forall i, (i < off \/ off + esize t <= i)%nat -> nth_error buf' i = nth_error buf i) /\
  (Forall is_byte buf -> Forall is_byte buf').
Proof.
  intros buf off t v is_le buf' H. destruct (set_value_shape _ _ _ _ _ _ H) as (bs & E & L & B & ->).
  assert (LF : length (firstn off buf) = off) by (rewrite firstn_length; lia).
  split; [|split].
  - rewrite !app_length, LF, L, skipn_length. lia.
  - intros i [Hi | Hi].
    + rewrite nth_error_app1 by lia. rewrite <- (firstn_skipn off buf) at 2. rewrite nth_error_app1 by lia. reflexivity.
    + rewrite nth_error_app2, LF by lia. rewrite nth_error_app2, L by lia.
      rewrite <- (firstn_skipn (off + esize t) buf) at 2. rewrite nth_error_app2 by (rewrite firstn_length; lia).
      f_equal. rewrite firstn_length. lia.
  - intro F. apply Forall_app. split; [|apply Forall_app; split].
    + rewrite <- (firstn_skipn off buf) in F. apply Forall_app in F. apply F.
    + apply (set_raw_shape _ _ _ _ E).
    + rewrite <- (firstn_skipn (off + esize t) buf) in F. apply Forall_app in F. apply F.
Qed.

Lemma skipn_plus : forall A n m (l : list A), skipn m (skipn n l) = skipn (n + m) l.
Proof. induction n as [|n IH]; intros m [|x l]; try reflexivity; [apply skipn_nil | apply IH]. Qed.

Lemma get_set : forall buf off t is_le v, Forall is_byte buf -> get_value buf off t is_le = SOk v -> not_nan v ->
  set_value buf off t v is_le = SOk buf.
Proof.
  intros buf off t is_le v F G N. unfold get_value, set_value in *.
  destruct (Nat.leb_spec (off + esize t) (length buf)) as [B|]; [|discriminate G].
  assert (FB : Forall is_byte (firstn (esize t) (skipn off buf))).
  { rewrite <- (firstn_skipn off buf) in F. apply Forall_app in F. destruct F as [_ F].
    rewrite <- (firstn_skipn (esize t) (skipn off buf)) in F. apply Forall_app in F. apply F. }
  assert (LB : length (firstn (esize t) (skipn off buf)) = esize t) by (rewrite firstn_length, skipn_length; lia).
  rewrite (get_set_raw _ _ _ _ FB LB G N). cbn [sbind]. f_equal.
  rewrite <- (firstn_skipn off buf) at 4. f_equal.
  rewrite <- skipn_plus. apply firstn_skipn.
Qed.

Lemma other_order : forall t v,
  set_raw t false v = (do bs <- set_raw t true v; SOk (rev bs)) /\
  forall bs, get_raw t false bs = get_raw t true (rev bs).
Proof.
  intros t v. split.
  - unfold set_raw. destruct (raw_word t v); reflexivity.
  - intro bs. destruct t; reflexivity.
Qed.
