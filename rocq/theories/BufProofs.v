From Coq Require Import ZArith List Bool Lia.
Import ListNotations.
From Verif Require Import StrModel NumModel NumSpec NumProofs BigModel BufModel BufSpec.
Local Open Scope Z_scope.

(** ** Bytes *)
Lemma lor_byte : forall b x, 0 <= b < 256 -> Z.lor b (Z.shiftl x 8) = b + 256 * x.
Proof.
  intros b x H. rewrite <- Z.lxor_lor, <- Z.add_nocarry_lxor;
    [rewrite Z.shiftl_mul_pow2 by lia; change (2 ^ 8) with 256; lia | |];
    apply Z.bits_inj'; intros i Hi; rewrite Z.land_spec, Z.bits_0, Z.shiftl_spec by lia;
    (destruct (Z.ltb_spec i 8);
     [rewrite (Z.testbit_neg_r x (i - 8)) by lia; apply andb_false_r
     | rewrite <- (Z.mod_small b (2 ^ 8)) by (change (2 ^ 8) with 256; lia); rewrite Z.mod_pow2_bits_high by lia; reflexivity]).
Qed.

Lemma le_word_little : forall bs, Forall is_byte bs -> le_word bs = little bs.
Proof.
  induction bs as [|b t IH]; intro H; [reflexivity|]. inversion H as [|? ? Hb Ht]; subst.
  cbn [le_word little fold_right]. fold (little t). rewrite lor_byte by exact Hb. rewrite IH by exact Ht. reflexivity.
Qed.

Lemma in_order_bytes : forall is_le bs, Forall is_byte bs -> Forall is_byte (in_order is_le bs).
Proof. intros [] bs H; [exact H | apply Forall_rev; exact H]. Qed.

Lemma word_little : forall is_le bs, Forall is_byte bs -> word is_le bs = little (in_order is_le bs).
Proof. intros is_le bs H. unfold word. apply (le_word_little (in_order is_le bs)). apply in_order_bytes. exact H. Qed.

Lemma le_bytes_cons : forall n v, le_bytes (S n) v = v mod 256 :: le_bytes n (v / 256).
Proof.
  intros n v. unfold le_bytes. cbn [seq map]. apply f_equal2.
  - change (8 * Z.of_nat 0) with 0. rewrite Z.shiftr_0_r. reflexivity.
  - rewrite <- seq_shift, map_map. apply map_ext. intro i.
    change 256 with (2 ^ 8) at 2. rewrite <- Z.shiftr_div_pow2 by lia. rewrite Z.shiftr_shiftr by lia.
    do 2 f_equal. lia.
Qed.

Lemma le_bytes_length : forall n v, length (le_bytes n v) = n.
Proof. intros. unfold le_bytes. rewrite map_length, seq_length. reflexivity. Qed.

Lemma le_bytes_byte : forall n v, Forall is_byte (le_bytes n v).
Proof.
  intros n v. unfold le_bytes. apply Forall_forall. intros x Hx. apply in_map_iff in Hx.
  destruct Hx as (i & <- & _). unfold is_byte. apply Z.mod_pos_bound. lia.
Qed.

Lemma pow_bytes : forall n : nat, 2 ^ (8 * Z.of_nat (S n)) = 256 * 2 ^ (8 * Z.of_nat n).
Proof. intro n. change 256 with (2 ^ 8). rewrite <- Z.pow_add_r by lia. f_equal. lia. Qed.

Lemma little_bytes : forall n v, little (le_bytes n v) = v mod 2 ^ (8 * Z.of_nat n).
Proof.
  induction n as [|n IH]; intro v; [rewrite Z.mod_1_r; reflexivity|].
  rewrite le_bytes_cons. cbn [little fold_right]. fold (little (le_bytes n (v / 256))). rewrite IH.
  rewrite pow_bytes, Z.rem_mul_r by (try lia; apply Z.pow_nonzero; lia). reflexivity.
Qed.

Lemma little_range : forall bs, Forall is_byte bs -> 0 <= little bs < 2 ^ (8 * Z.of_nat (length bs)).
Proof.
  induction bs as [|b t IH]; intro H; [cbn; lia|]. inversion H as [|? ? Hb Ht]; subst. specialize (IH Ht).
  cbn [length]. rewrite pow_bytes. cbn [little fold_right]. fold (little t). unfold is_byte in Hb. lia.
Qed.

Lemma bytes_little : forall bs, Forall is_byte bs -> le_bytes (length bs) (little bs) = bs.
Proof.
  induction bs as [|b t IH]; intro H; [reflexivity|]. inversion H as [|? ? Hb Ht]; subst. unfold is_byte in Hb.
  cbn [length]. rewrite le_bytes_cons. cbn [little fold_right]. fold (little t). rewrite (Z.mul_comm 256).
  rewrite Z.mod_add, Z.div_add by lia. rewrite Z.mod_small, Z.div_small by exact Hb. cbn [Z.add]. rewrite IH by exact Ht. reflexivity.
Qed.

Lemma bytes_in_order : forall is_le n v, bytes is_le n v = in_order is_le (le_bytes n v).
Proof. reflexivity. Qed.

Lemma in_order_length : forall A is_le (bs : list A), length (in_order is_le bs) = length bs.
Proof. intros A [] bs; [reflexivity | apply rev_length]. Qed.

Lemma in_order_twice : forall A is_le (bs : list A), in_order is_le (in_order is_le bs) = bs.
Proof. intros A [] bs; [reflexivity | apply rev_involutive]. Qed.

Lemma word_bytes : forall is_le n v, word is_le (bytes is_le n v) = v mod 2 ^ (8 * Z.of_nat n).
Proof.
  intros is_le n v. rewrite bytes_in_order, word_little by (apply in_order_bytes, le_bytes_byte).
  rewrite in_order_twice. apply little_bytes.
Qed.

Lemma bytes_word : forall is_le bs, Forall is_byte bs -> bytes is_le (length bs) (word is_le bs) = bs.
Proof.
  intros is_le bs H. rewrite word_little, bytes_in_order by exact H.
  rewrite <- (in_order_length _ is_le bs), bytes_little by (apply in_order_bytes; exact H). apply in_order_twice.
Qed.

(** ** Rounding *)
Lemma rhe_spec : forall a g, 0 < g ->
  let q := round_half_even a g in
  2 * Z.abs (a - q * g) <= g /\
  (forall k, Z.abs (a - q * g) <= Z.abs (a - k * g)) /\
  (forall k, Z.abs (a - q * g) = Z.abs (a - k * g) -> k <> q -> Z.even q = true /\ 2 * Z.abs (a - q * g) = g).
Proof.
  intros a g Hg. cbv zeta. unfold round_half_even.
  pose proof (Z.div_mod a g ltac:(lia)) as DM. pose proof (Z.mod_pos_bound a g Hg) as MB.
  set (q0 := a / g) in *. set (r := a mod g) in *. clearbody q0 r.
  assert (K : forall k, k <= q0 -> a - k * g >= r) by (intros; nia).
  assert (K1 : forall k, q0 + 1 <= k -> k * g - a >= g - r) by (intros; nia).
  assert (E0 : a - q0 * g = r) by lia. assert (E1 : a - (q0 + 1) * g = r - g) by lia.
  destruct (Z.ltb_spec (2 * r) g).
  { rewrite E0. split; [lia|]. split; intros k; destruct (Z.le_gt_cases k q0) as [L | L].
    - specialize (K k L). lia. - specialize (K1 k ltac:(lia)). lia.
    - intros H1 H2. exfalso. assert (k < q0) by lia. assert (a - k * g >= r + g) by nia. lia.
    - intros H1 H2. exfalso. specialize (K1 k ltac:(lia)). lia. }
  destruct (Z.ltb_spec g (2 * r)).
  { rewrite E1. split; [lia|]. split; intros k; destruct (Z.le_gt_cases k q0) as [L | L].
    - specialize (K k L). lia. - specialize (K1 k ltac:(lia)). lia.
    - intros H1 H2. exfalso. specialize (K k L). lia.
    - intros H1 H2. exfalso. assert (q0 + 2 <= k) by lia. assert (k * g - a >= 2 * g - r) by nia. lia. }
  assert (2 * r = g) by lia.
  destruct (Z.even q0) eqn:Ev.
  - rewrite E0. split; [lia|]. split; intros k; [|intros; split; [exact Ev | lia]].
    destruct (Z.le_gt_cases k q0) as [L | L]; [specialize (K k L); lia | specialize (K1 k ltac:(lia)); lia].
  - rewrite E1. split; [lia|]. split; intros k.
    + destruct (Z.le_gt_cases k q0) as [L | L]; [specialize (K k L); lia | specialize (K1 k ltac:(lia)); lia].
    + intros. split; [|lia]. rewrite Z.even_add, Ev. reflexivity.
Qed.

(** ** Single precision *)
Lemma ffields : forall S E M, 0 <= S <= 1 -> 0 <= E < 256 -> 0 <= M < 2 ^ 23 ->
  let f := S * 2 ^ 31 + E * 2 ^ 23 + M in
  fsign f = (S =? 1) /\ fexp f = E /\ fman f = M /\ 0 <= f < 2 ^ 32.
Proof.
  intros S E M HS HE HM f. unfold fsign, fexp, fman, f.
  change (2 ^ 31) with (2 ^ 8 * 2 ^ 23). change (2 ^ 32) with (512 * 2 ^ 23).
  replace (S * (2 ^ 8 * 2 ^ 23) + E * 2 ^ 23 + M) with (M + (S * 2 ^ 8 + E) * 2 ^ 23) by ring.
  rewrite Z.mod_add, Z.div_add by lia. rewrite (Z.mod_small M), (Z.div_small M) by lia.
  cbn [Z.add]. rewrite Z.add_comm, Z.add_comm, (Z.add_comm (S * 2 ^ 8)), Z.mod_add by lia.
  rewrite Z.mod_small by (change (2 ^ 8) with 256; lia).
  change (2 ^ 23) with 8388608 in *. change (2 ^ 8) with 256.
  repeat split; lia.
Qed.

Lemma fsplit : forall f, 0 <= f < 2 ^ 32 ->
  exists (s : bool) E M, 0 <= E < 256 /\ 0 <= M < 2 ^ 23 /\ f = (if s then 1 else 0) * 2 ^ 31 + E * 2 ^ 23 + M.
Proof.
  intros f H. exists (2 ^ 31 <=? f), (f / 2 ^ 23 mod 256), (f mod 2 ^ 23).
  pose proof (Z.div_mod f (2 ^ 23) ltac:(lia)) as D1. pose proof (Z.mod_pos_bound f (2 ^ 23) ltac:(lia)) as B1.
  pose proof (Z.div_mod (f / 2 ^ 23) 256 ltac:(lia)) as D2. pose proof (Z.mod_pos_bound (f / 2 ^ 23) 256 ltac:(lia)) as B2.
  set (q := f / 2 ^ 23) in *. set (x := f mod 2 ^ 23) in *. set (y := q / 256) in *. set (z := q mod 256) in *.
  clearbody y z x. clearbody q. change (2 ^ 31) with 2147483648 in *. change (2 ^ 23) with 8388608 in *. change (2 ^ 32) with 4294967296 in *.
  repeat split; try lia. destruct (Z.leb_spec 2147483648 f); lia.
Qed.

Lemma sign31 : forall s : bool, (if (if s then 1 else 0) =? 1 then 2 ^ 63 else 0) = (if s then 1 else 0) * 2 ^ 63.
Proof. intros []; reflexivity. Qed.

Lemma single_fields : forall f s m e, single_bits f s m e ->
  f_is_nan f = false /\ 0 <= f < 2 ^ 32 /\
  exists m' e', double (float_to_double f) s m' e' /\ m' * 2 ^ (e' + 1074) = m * 2 ^ (e + 1074).
Proof.
  intros f s m e H. destruct H as [s E M HE HM | s M HM].
  - destruct (ffields _ E M (zs_bound s) ltac:(lia) HM) as (A & B & C & R).
    set (f := (if s then 1 else 0) * 2 ^ 31 + E * 2 ^ 23 + M) in *. clearbody f.
    unfold f_is_nan, float_to_double. rewrite A, B, C.
    destruct (Z.eqb_spec E 255); [lia|]. destruct (Z.eqb_spec E 0); [lia|]. cbn [andb].
    split; [reflexivity|]. split; [exact R|]. rewrite sign31, Z.add_assoc.
    exists (2 ^ 52 + M * 2 ^ 29), (E + 896 - 1075). split.
    + apply Dnormal; [lia|]. change (2 ^ 52) with (2 ^ 23 * 2 ^ 29). change (2 ^ 23) with 8388608 in *. change (2 ^ 29) with 536870912. lia.
    + change (2 ^ 52) with (2 ^ 23 * 2 ^ 29). rewrite <- Z.mul_add_distr_r, <- Z.mul_assoc, <- Z.pow_add_r by lia.
      do 2 f_equal. lia.
  - replace ((if s then 1 else 0) * 2 ^ 31 + M) with ((if s then 1 else 0) * 2 ^ 31 + 0 * 2 ^ 23 + M) by lia.
    destruct (ffields _ 0 M (zs_bound s) ltac:(lia) HM) as (A & B & C & R).
    set (f := (if s then 1 else 0) * 2 ^ 31 + 0 * 2 ^ 23 + M) in *. clearbody f.
    unfold f_is_nan, float_to_double. rewrite A, B, C. cbn [Z.eqb andb].
    split; [reflexivity|]. split; [exact R|]. rewrite sign31.
    destruct (Z.eqb_spec M 0) as [-> | NZ].
    + exists 0, (-1074). split; [|reflexivity]. apply Dsubnormal. lia.
    + set (l := Z.log2 M). assert (HP : 0 < M) by lia.
      pose proof (Z.log2_spec M HP) as [L1 L2]. fold l in L1, L2.
      assert (0 <= l) by apply Z.log2_nonneg.
      assert (l < 23) by (apply Z.log2_lt_pow2; lia).
      assert (P1 : 2 ^ l * 2 ^ (52 - l) = 2 ^ 52) by (rewrite <- Z.pow_add_r by lia; f_equal; lia).
      assert (P2 : 2 ^ Z.succ l * 2 ^ (52 - l) = 2 * 2 ^ 52).
      { rewrite <- Z.pow_add_r by lia. rewrite <- Z.pow_succ_r by lia. f_equal. lia. }
      assert (0 < 2 ^ (52 - l)) by (apply Z.pow_pos_nonneg; lia).
      assert (RR : 2 ^ 52 <= M * 2 ^ (52 - l) < 2 * 2 ^ 52).
      { rewrite <- P2, <- P1. split; [apply Z.mul_le_mono_nonneg_r; lia | apply Z.mul_lt_mono_pos_r; lia]. }
      exists (2 ^ 52 + (M * 2 ^ (52 - l) - 2 ^ 52)), ((l + 874) - 1075). split.
      * rewrite Z.add_assoc. apply Dnormal; lia.
      * replace (2 ^ 52 + (M * 2 ^ (52 - l) - 2 ^ 52)) with (M * 2 ^ (52 - l)) by lia.
        rewrite <- Z.mul_assoc, <- Z.pow_add_r by lia. do 2 f_equal. lia.
Qed.

Lemma single_inf_fields : forall f s, single_inf f s ->
  f_is_nan f = false /\ infinite (float_to_double f) s.
Proof.
  intros f s H. unfold single_inf in H.
  destruct (ffields _ 255 0 (zs_bound s) ltac:(lia) ltac:(lia)) as (A & B & C & R).
  rewrite Z.add_0_r, <- H in A, B, C. unfold f_is_nan, float_to_double, infinite. rewrite A, B, C, sign31. split; reflexivity.
Qed.

Lemma single_nan_fields : forall f, single_nan f -> f_is_nan f = true.
Proof.
  intros f (s & M & HM & ->).
  destruct (ffields _ 255 M (zs_bound s) ltac:(lia) ltac:(lia)) as (A & B & C & R).
  unfold f_is_nan. rewrite B, C. cbn [andb]. destruct (Z.eqb_spec M 0); [lia | reflexivity].
Qed.

Lemma single_classify : forall f, 0 <= f < 2 ^ 32 ->
  (exists s m e, single_bits f s m e) \/ (exists s, single_inf f s) \/ single_nan f.
Proof.
  intros f H. destruct (fsplit f H) as (s & E & M & HE & HM & ->).
  destruct (Z.eq_dec E 255) as [-> | N].
  - right. destruct (Z.eq_dec M 0) as [-> | NM]; [left; exists s; unfold single_inf; ring | right; exists s, M; split; [lia | reflexivity]].
  - left. destruct (Z.eq_dec E 0) as [-> | NE].
    + exists s, M, (-149). rewrite Z.mul_0_l, Z.add_0_r. apply Fsubnormal. exact HM.
    + exists s, (2 ^ 23 + M), (E - 150). apply Fnormal; [lia | exact HM].
Qed.

(** *** the rounded magnitude: (g, q) with q <= 2^24 *)
Section Round.
  Variable M : Z.
  Hypothesis HM : 0 <= M.
  Let g := Z.max (Z.log2 M - 23) 925.
  Let q := round_half_even M (2 ^ g).

  Lemma g_pos : 925 <= g. Proof. unfold g. lia. Qed.
  Lemma pg : 0 < 2 ^ g. Proof. apply Z.pow_pos_nonneg; [lia|]. pose proof g_pos. lia. Qed.
  Lemma pg23 : forall k, 0 <= k -> 2 ^ (g + k) = 2 ^ k * 2 ^ g.
  Proof. intros. pose proof g_pos. rewrite Z.pow_add_r by lia. ring. Qed.
  Lemma M_upper : M < 2 ^ 24 * 2 ^ g.
  Proof.
    pose proof g_pos. rewrite <- pg23 by lia. destruct (Z.eq_dec M 0) as [-> | N]; [apply Z.pow_pos_nonneg; lia|].
    apply Z.log2_lt_pow2; [lia|]. unfold g. lia.
  Qed.
  Lemma M_lower : 925 < g -> 2 ^ 23 * 2 ^ g <= M.
  Proof.
    intro H. rewrite <- pg23 by lia. assert (G : g = Z.log2 M - 23) by (unfold g in *; lia).
    assert (0 < M). { destruct (Z.eq_dec M 0) as [E | N]; [|lia]. rewrite E in G. change (Z.log2 0) with 0 in G. lia. }
    rewrite G. replace (Z.log2 M - 23 + 23) with (Z.log2 M) by lia. apply Z.log2_spec. assumption.
  Qed.
  Lemma q_bounds : 0 <= q <= 2 ^ 24 /\ (925 < g -> 2 ^ 23 <= q).
  Proof.
    pose proof pg as P. destruct (rhe_spec M (2 ^ g) P) as (A & B & _). fold q in A, B.
    pose proof M_upper as U. pose proof M_lower as L. clearbody q. 
    split.
    - split.
      + specialize (B 0). destruct (Z.lt_ge_cases q 0); [exfalso; nia | lia].
      + specialize (B (2 ^ 24)). destruct (Z.lt_ge_cases (2 ^ 24) q); [exfalso; nia | lia].
    - intro G. specialize (L G). specialize (B (2 ^ 23)).
      destruct (Z.lt_ge_cases q (2 ^ 23)); [exfalso; nia | lia].
  Qed.

  (** below the limit: a single precision pattern *)
  Lemma single_limit_iff : M < single_limit <-> (g < 1178 \/ (g = 1178 /\ q < 2 ^ 24)).
  Proof.
    unfold single_limit. change (103 + 1074) with 1177. pose proof pg as P.
    pose proof M_upper as U. pose proof M_lower as L. pose proof g_pos as G0.
    destruct (rhe_spec M (2 ^ g) P) as (A & B & C). fold q in A, B, C.
    assert (TWO : 2 ^ 1178 = 2 * 2 ^ 1177) by reflexivity.
    assert (P7 : 0 < 2 ^ 1177) by reflexivity.
    destruct (Z.lt_trichotomy g 1178) as [H | [H | H]].
    - split; [lia|]. intros _.
      assert (Q : 2 ^ g <= 2 ^ 1177) by (apply Z.pow_le_mono_r; lia).
      generalize dependent (2 ^ 1177). generalize dependent (2 ^ g). intros. change (2 ^ 24) with 16777216 in *. change (2 ^ 25) with 33554432. nia.
    - pose proof q_bounds as [QB _]. specialize (B (2 ^ 24)). specialize (C (2 ^ 24 - 1)).
      assert (EV : q = 2 ^ 24 -> Z.abs (M - q * 2 ^ g) = Z.abs (M - (2 ^ 24 - 1) * 2 ^ g) -> True) by auto.
      pose proof (rhe_spec M (2 ^ g) P) as (_ & B' & C'). fold q in B', C'. specialize (B' (2 ^ 24 - 1)). specialize (C' (2 ^ 24)).
      rewrite H in *. rewrite TWO in *. clearbody q. generalize dependent (2 ^ 1177). intros w; intros.
      change (2 ^ 24) with 16777216 in *. change (2 ^ 25) with 33554432. split; intro X.
      + right. split; [reflexivity|]. destruct (Z.eq_dec q 16777216) as [-> | N]; [exfalso; lia | lia].
      + destruct X as [X | [_ X]]; [lia|].
        destruct (Z.eq_dec q 16777215) as [-> | N]; [|nia].
        destruct (Z.lt_ge_cases M (33554431 * w)); [assumption|].
        exfalso. assert (EQ : M = 33554431 * w) by lia.
        destruct (C' ltac:(lia) ltac:(lia)) as [EE _]. discriminate EE.
    - split; [|lia]. intro X. exfalso. specialize (L ltac:(lia)).
      assert (Q : 2 ^ 1179 <= 2 ^ g) by (apply Z.pow_le_mono_r; lia).
      change (2 ^ 1179) with (4 * 2 ^ 1177) in Q.
      generalize dependent (2 ^ 1177). generalize dependent (2 ^ g). intros. change (2 ^ 23) with 8388608 in *. change (2 ^ 25) with 33554432 in *. nia.
  Qed.

  Lemma round_pattern : forall s : bool, M < single_limit ->
    exists m e, single_bits ((if s then 2 ^ 31 else 0) + Z.min ((g - 925) * 2 ^ 23 + q) 0x7f800000) s m e /\
                m * 2 ^ (e + 1074) = q * 2 ^ g.
  Proof.
    intros s H. apply single_limit_iff in H. pose proof g_pos as G0. pose proof q_bounds as [QB QL].
    replace (if s then 2 ^ 31 else 0) with ((if s then 1 else 0) * 2 ^ 31) by (destruct s; reflexivity).
    assert (MIN : Z.min ((g - 925) * 2 ^ 23 + q) 0x7f800000 = (g - 925) * 2 ^ 23 + q).
    { clearbody q g. change (2 ^ 23) with 8388608 in *. change (2 ^ 24) with 16777216 in *. lia. }
    rewrite MIN. clear MIN. clearbody q g.
    destruct (Z.eq_dec q (2 ^ 24)) as [-> | N].
    - exists (2 ^ 23 + 0), ((g - 923) - 150). split.
      + replace ((g - 925) * 2 ^ 23 + 2 ^ 24) with ((g - 923) * 2 ^ 23 + 0) by (change (2 ^ 24) with (2 * 2 ^ 23); ring).
        rewrite Z.add_assoc. apply Fnormal; lia.
      + replace (g - 923 - 150 + 1074) with (1 + g) by lia. rewrite (Z.pow_add_r 2 1 g) by lia. change (2 ^ 24) with (2 ^ 23 * 2 ^ 1). ring.
    - destruct (Z.lt_ge_cases q (2 ^ 23)) as [L | L].
      + assert (g = 925) as -> by lia. exists q, (-149). split; [apply Fsubnormal; lia | reflexivity].
      + exists (2 ^ 23 + (q - 2 ^ 23)), ((g - 924) - 150). split.
        * replace ((g - 925) * 2 ^ 23 + q) with ((g - 924) * 2 ^ 23 + (q - 2 ^ 23)) by ring.
          rewrite Z.add_assoc. apply Fnormal; [lia|]. change (2 ^ 24) with (2 * 2 ^ 23) in *. lia.
        * replace (2 ^ 23 + (q - 2 ^ 23)) with q by ring. do 2 f_equal. lia.
  Qed.

  Lemma round_over : forall s : bool, single_limit <= M ->
    single_inf ((if s then 2 ^ 31 else 0) + Z.min ((g - 925) * 2 ^ 23 + q) 0x7f800000) s.
  Proof.
    intros s H. assert (X : ~ (g < 1178 \/ (g = 1178 /\ q < 2 ^ 24))) by (rewrite <- single_limit_iff; lia).
    pose proof q_bounds as [QB QL]. pose proof g_pos as G0. unfold single_inf.
    assert (MIN : Z.min ((g - 925) * 2 ^ 23 + q) 0x7f800000 = 255 * 2 ^ 23).
    { clearbody q g. change (2 ^ 23) with 8388608 in *. change (2 ^ 24) with 16777216 in *. lia. }
    rewrite MIN. destruct s; reflexivity.
  Qed.

  Lemma q_single : M < single_limit -> single (q * 2 ^ g) /\ (Z.even q = true -> single_even (q * 2 ^ g)).
  Proof.
    intro H. apply single_limit_iff in H. pose proof g_pos as G0. pose proof q_bounds as [QB QL]. clearbody q g.
    destruct (Z.eq_dec q (2 ^ 24)) as [-> | N].
    - assert (E : 2 ^ 24 * 2 ^ g = 2 ^ 23 * 2 ^ (g - 1073 + 1074)).
      { replace (g - 1073 + 1074) with (1 + g) by lia. rewrite (Z.pow_add_r 2 1 g) by lia. change (2 ^ 24) with (2 ^ 23 * 2 ^ 1). ring. }
      split; [|intros _]; exists false, (2 ^ 23), (g - 1073).
      + split; [split; [discriminate | reflexivity]|]. split; [lia|]. exact E.
      + split; [split; [discriminate | reflexivity]|]. split; [lia|]. split; [right; lia|]. split; [exact E | reflexivity].
    - assert (E : q * 2 ^ g = q * 2 ^ (g - 1074 + 1074)) by (do 2 f_equal; lia).
      split; [|intro EV]; exists false, q, (g - 1074).
      + split; [lia|]. split; [lia|]. exact E.
      + split; [lia|]. split; [lia|]. split; [destruct (Z.eq_dec g 925); [left; lia | right; apply QL; lia]|]. split; [exact E | exact EV].
  Qed.

  Lemma round_nearest : M < single_limit -> nearest_single M (q * 2 ^ g).
  Proof.
    intro H. destruct (q_single H) as [S1 S2]. split; [exact S1|]. intros x (s & m & e & Hm & He & ->).
    pose proof pg as P. destruct (rhe_spec M (2 ^ g) P) as (A & B & C). fold q in A, B, C.
    destruct (Z.le_gt_cases g (e + 1074)) as [L | L].
    - assert (K : exists k, with_sign s (m * 2 ^ (e + 1074)) = k * 2 ^ g).
      { exists (with_sign s (m * 2 ^ (e + 1074 - g))).
        assert (X : m * 2 ^ (e + 1074) = m * 2 ^ (e + 1074 - g) * 2 ^ g).
        { rewrite <- Z.mul_assoc, <- Z.pow_add_r by (pose proof g_pos; lia). do 2 f_equal. lia. }
        rewrite X. destruct s; cbn [with_sign]; ring. }
      destruct K as [k ->]. split; [apply B|]. intros E N. apply S2. apply (proj1 (C k E ltac:(intro; subst; apply N; reflexivity))).
    - assert (G : 925 < g) by lia. pose proof (M_lower G) as ML.
      assert (XB : m * 2 ^ (e + 1074) < 2 ^ 23 * 2 ^ g).
      { apply Z.lt_le_trans with (2 ^ 24 * 2 ^ (e + 1074)).
        - apply Z.mul_lt_mono_pos_r; [apply Z.pow_pos_nonneg; lia | lia].
        - rewrite <- !Z.pow_add_r by lia. apply Z.pow_le_mono_r; lia. }
      assert (XN : 0 <= m * 2 ^ (e + 1074)) by (apply Z.mul_nonneg_nonneg; [lia | apply Z.pow_nonneg; lia]).
      specialize (B (2 ^ 23)). set (x := m * 2 ^ (e + 1074)) in *. clearbody x.
      assert (ST : Z.abs (M - q * 2 ^ g) < Z.abs (M - with_sign s x)) by (destruct s; cbn [with_sign]; lia).
      split; [lia|]. intros E _. lia.
  Qed.
End Round.

Lemma with_sign_inv : forall s z, with_sign s (with_sign s z) = z.
Proof. intros [] z; cbn [with_sign]; lia. Qed.

Lemma nearest_sign : forall s v r, nearest_single v r -> nearest_single (with_sign s v) (with_sign s r).
Proof.
  intros s v r [S N].
  assert (SS : forall x, single x -> single (with_sign s x)).
  { intros x (s' & m & e & Hm & He & ->). exists (xorb s s'), m, e. split; [exact Hm|]. split; [exact He|].
    destruct s, s'; cbn [with_sign xorb]; lia. }
  assert (SE : forall x, single_even x -> single_even (with_sign s x)).
  { intros x (s' & m & e & Hm & He & K & -> & Ev). exists (xorb s s'), m, e. split; [exact Hm|]. split; [exact He|]. split; [exact K|].
    split; [destruct s, s'; cbn [with_sign xorb]; lia | exact Ev]. }
  split; [apply SS; exact S|]. intros x Hx. destruct (N (with_sign s x) (SS x Hx)) as [N1 N2].
  assert (A1 : Z.abs (with_sign s v - with_sign s r) = Z.abs (v - r)) by (destruct s; cbn [with_sign]; lia).
  assert (A2 : Z.abs (with_sign s v - x) = Z.abs (v - with_sign s x)) by (destruct s; cbn [with_sign]; lia).
  rewrite A1, A2. split; [exact N1|]. intros E D. apply SE. apply N2; [exact E|].
  intro F. apply D. rewrite <- F. rewrite with_sign_inv. reflexivity.
Qed.

Lemma dmag_double : forall b s m e, double b s m e -> dmag b = m * 2 ^ (e + 1074).
Proof.
  intros b s m e D. pose proof (dval_double _ _ _ _ D) as V. destruct (double_fields _ _ _ _ D) as (S & _). unfold dval in V.
  rewrite S in V. destruct s; cbn [with_sign] in V; lia.
Qed.

(** storing a double as float and reading it back *)
Lemma fround_spec : forall b, 0 <= b < 2 ^ 64 ->
  0 <= double_to_float b < 2 ^ 32 /\
  frounded b (if f_is_nan (double_to_float b) then NAN else float_to_double (double_to_float b)).
Proof.
  intros b Hb. destruct (classify b Hb) as [(s & m & e & D) | [(s & D) | D]].
  - destruct (double_fields _ _ _ _ D) as (S & A & B & _). pose proof (dmag_double _ _ _ _ D) as MG.
    destruct (double_shape _ _ _ _ D) as [Hm He].
    assert (NN : 0 <= m * 2 ^ (e + 1074)) by (apply Z.mul_nonneg_nonneg; [lia | apply Z.pow_nonneg; lia]).
    unfold double_to_float. rewrite S, A, B, MG. cbv zeta.
    destruct (Z.lt_ge_cases (m * 2 ^ (e + 1074)) single_limit) as [L | L].
    + destruct (round_pattern _ NN s L) as (m1 & e1 & SB & EQ).
      destruct (single_fields _ _ _ _ SB) as (NAN0 & R & m2 & e2 & D2 & EQ2). rewrite NAN0. split; [exact R|].
      apply (Fr_near _ _ s m e m2 e2 D L D2). apply nearest_sign. rewrite EQ2, EQ. apply round_nearest; assumption.
    + pose proof (round_over _ NN s L) as SI. destruct (single_inf_fields _ _ SI) as (N0 & I). rewrite N0. split.
      * rewrite SI. destruct s; (split; [discriminate | reflexivity]).
      * apply (Fr_over _ _ s m e D L I).
  - destruct (infinite_fields _ _ D) as (S & A & B & _). unfold double_to_float. rewrite S, A, B.
    assert (SI : single_inf ((if s then 2 ^ 31 else 0) + 0x7f800000) s) by (destruct s; reflexivity).
    destruct (single_inf_fields _ _ SI) as (N0 & I). rewrite N0. split; [destruct s; (split; [discriminate | reflexivity])|].
    apply (Fr_inf _ _ s D I).
  - destruct (nan_fields _ D) as (A & _). unfold double_to_float. rewrite A.
    pose proof (Z.mod_pos_bound (dman b / 2 ^ 29) (2 ^ 22) ltac:(lia)) as MB. set (x := (dman b / 2 ^ 29) mod 2 ^ 22) in *. clearbody x.
    assert (SN : single_nan ((if dsign b then 2 ^ 31 else 0) + (0x7fc00000 + x))).
    { exists (dsign b), (2 ^ 22 + x). change (2 ^ 22) with 4194304 in *. change (2 ^ 23) with 8388608. split; [lia|].
      destruct (dsign b); lia. }
    rewrite (single_nan_fields _ SN). split.
    + change (2 ^ 22) with 4194304 in *. change (2 ^ 31) with 2147483648. change (2 ^ 32) with 4294967296. destruct (dsign b); lia.
    + apply Fr_nan; [exact D | reflexivity].
Qed.
