(** Shifts of big integers. *)
From Coq Require Import ZArith List Bool Lia ZifyBool.
Import ListNotations.
From Verif Require Import BigModel BigSpec BigProofs BigSubProofs BigMulProofs BigBitProofs.
Open Scope Z_scope.
Ltac Zify.zify_post_hook ::= Z.div_mod_to_equations.

(** digit [j < size] as read by the shift loops *)
Lemma tc_digit b j : normal b -> (j < length (mag b))%nat ->
  nth j (tc_input b) 0 = (value b / Bp j) mod B.
Proof.
  intros N Hj. unfold tc_input. rewrite neg_pos by auto. destruct (Z.ltb_spec (value b) 0).
  - apply comp_digit; auto.
  - apply pos_digit; auto.
Qed.

Lemma tc_fill b j : normal b -> (length (mag b) <= j)%nat ->
  (if positive b <? 0 then B - 1 else 0) = (value b / Bp j) mod B.
Proof.
  intros N Hj. rewrite neg_pos by auto. destruct (Z.ltb_spec (value b) 0).
  - symmetry. apply fill_digit; auto.
  - rewrite pos_fill by auto. reflexivity.
Qed.

Lemma two_digits x bits : 0 <= bits < 32 ->
  (x mod B + (x / B) mod B * B) / 2 ^ bits mod B = (x / 2 ^ bits) mod B.
Proof.
  intros Hb.
  assert (E : x mod B + (x / B) mod B * B = x mod (B * B)).
  { rewrite Z.rem_mul_r by (rewrite B_val; lia). ring. }
  rewrite E. change (B * B) with (2 ^ 64). change B with (2 ^ 32).
  rewrite <- !Z.shiftr_div_pow2 by lia. apply Z.bits_inj'. intros k Hk.
  destruct (Z.lt_ge_cases k 32).
  - rewrite !Z.mod_pow2_bits_low by lia. rewrite !Z.shiftr_spec by lia.
    rewrite Z.mod_pow2_bits_low by lia. reflexivity.
  - rewrite !Z.mod_pow2_bits_high by lia. reflexivity.
Qed.

Lemma shr_loop_digits b bits : normal b -> 0 <= bits < 32 ->
  forall k j, (k = 0 \/ j + k = length (mag b))%nat ->
  shr_loop k j (length (mag b)) (tc_input b) (if positive b <? 0 then B - 1 else 0) bits
  = digits k (value b / Bp j / 2 ^ bits).
Proof.
  intros N Hb. induction k as [|k IH]; intros j Hk; cbn [shr_loop digits]; [reflexivity|].
  assert (P : 0 < 2 ^ bits) by (apply Z.pow_pos_nonneg; lia).
  rewrite IH by lia. f_equal.
  - rewrite tc_digit by (auto; lia).
    replace (if (j + 1 <? length (mag b))%nat then nth (j + 1) (tc_input b) 0
             else if positive b <? 0 then B - 1 else 0) with ((value b / Bp j / B) mod B).
    + apply two_digits; auto.
    + rewrite div_Bp_S. replace (S j) with (j + 1)%nat by lia.
      destruct (Nat.ltb_spec (j + 1) (length (mag b))).
      * symmetry. apply tc_digit; auto.
      * symmetry. apply tc_fill; auto.
  - f_equal. rewrite <- div_Bp_S. rewrite !Z.div_div by (pose proof (Bp_pos j); rewrite ?B_val; lia).
    f_equal. ring.
Qed.

(** *** left shift *)
Lemma lor_sum x l k : 0 <= k -> 0 <= l < 2 ^ k -> Z.lor (x * 2 ^ k) l = x * 2 ^ k + l.
Proof.
  intros Hk Hl. rewrite <- Z.shiftl_mul_pow2 by lia.
  assert (L : Z.land (Z.shiftl x k) l = 0).
  { apply Z.bits_inj'. intros i Hi. rewrite Z.land_spec, Z.bits_0. destruct (Z.lt_ge_cases i k).
    - rewrite Z.shiftl_spec_low by lia. reflexivity.
    - replace (Z.testbit l i) with false; [apply andb_false_r|]. symmetry.
      destruct (Z.eq_dec l 0) as [->|]; [apply Z.bits_0|].
      apply Z.bits_above_log2; [lia|]. apply Z.log2_lt_pow2; [lia|].
      assert (2 ^ k <= 2 ^ i) by (apply Z.pow_le_mono_r; lia). lia. }
  rewrite Z.add_nocarry_lxor, Z.lxor_lor by auto. reflexivity.
Qed.

(** [k] digits of [C] from index [j], times [2^bits] plus [left]; the last carry. *)
Lemma shl_loop_spec s bits isn : limbs s -> 0 <= bits < 32 ->
  forall k j left, 0 <= left < 2 ^ bits ->
  let V := (eval s / Bp j) mod Bp k * 2 ^ bits + left in
  let c := V / Bp k in
  shl_loop k j s bits left isn =
    digits k V ++ (if c =? 0 then [] else [if isn then Z.lor c ((B - 1) * 2 ^ bits mod B) else c])
  /\ 0 <= c < 2 ^ bits.
Proof.
  intros L Hb. assert (P : 0 < 2 ^ bits) by (apply Z.pow_pos_nonneg; lia).
  induction k as [|k IH]; intros j left Hl; cbn [shl_loop digits].
  - rewrite Bp_0, Z.mod_1_r, Z.div_1_r. cbn [Z.mul Z.add app]. split; [reflexivity|lia].
  - rewrite lor_sum by lia. rewrite <- eval_nth by auto.
    set (x := eval s / Bp j).
    assert (Hm : 0 <= x mod B < B) by (apply Z.mod_pos_bound; rewrite B_val; lia).
    set (v := x mod B * 2 ^ bits + left).
    assert (Hv : 0 <= v / B < 2 ^ bits).
    { unfold v. split; [apply Z.div_pos; rewrite ?B_val in *; nia|].
      apply Z.div_lt_upper_bound; [rewrite B_val; lia|]. nia. }
    destruct (IH (S j) (v / B) Hv) as (E & Hc).
    cbv zeta. cbv zeta in E, Hc.
    rewrite <- div_Bp_S in E, Hc. fold x in E, Hc.
    set (V := x mod Bp (S k) * 2 ^ bits + left).
    assert (HV : V / B = (x / B) mod Bp k * 2 ^ bits + v / B /\ V mod B = v mod B).
    { unfold V. rewrite Bp_S, Z.rem_mul_r by (rewrite ?B_val; pose proof (Bp_pos k); lia).
      replace ((x mod B + B * ((x / B) mod Bp k)) * 2 ^ bits + left)
        with (v + (x / B) mod Bp k * 2 ^ bits * B) by (unfold v; ring).
      split; [rewrite Z.div_add by (rewrite B_val; lia); lia|apply Z.mod_add; rewrite B_val; lia]. }
    destruct HV as (HV1 & HV2).
    assert (HVc : V / Bp (S k) = V / B / Bp k).
    { rewrite Bp_S, Z.div_div by (rewrite ?B_val; pose proof (Bp_pos k); lia). reflexivity. }
    rewrite HVc, HV1, HV2. split; [|exact Hc]. rewrite E. reflexivity.
Qed.

Lemma lor_fill c bits : 0 <= bits < 32 -> 0 <= c < 2 ^ bits ->
  Z.lor c ((B - 1) * 2 ^ bits mod B) = c + (B - 2 ^ bits).
Proof.
  intros Hb Hc.
  assert (P31 : 2 ^ bits <= 2 ^ 31) by (apply Z.pow_le_mono_r; lia). change (2 ^ 31) with 2147483648 in P31.
  assert (Hm : (B - 1) * 2 ^ bits mod B = B - 2 ^ bits).
  { symmetry. apply (Z.mod_unique_pos _ _ (2 ^ bits - 1)); [rewrite B_val; lia|]. ring. }
  rewrite Hm.
  assert (K : B - 2 ^ bits = Z.ones (32 - bits) * 2 ^ bits).
  { rewrite Z.ones_equiv. unfold Z.pred. rewrite Z.mul_add_distr_r, <- Z.pow_add_r by lia.
    replace (32 - bits + bits) with 32 by lia. change (2 ^ 32) with B. lia. }
  rewrite K, Z.lor_comm, lor_sum by lia. lia.
Qed.

(** *** the two shifts by [y] with [0 < y < 2^32] *)
Definition shr_core (b : bi) (y : Z) : bi :=
  let off := Z.to_nat (y / 32) in
  let d := strip (shr_loop (length (mag b) - off) off (length (mag b)) (tc_input b)
                   (if positive b <? 0 then B - 1 else 0) (y mod 32)) in
  if positive b <? 0 then signed true (complement d) else signed false d.
Definition shl_core (b : bi) (y : Z) : bi :=
  let off := Z.to_nat (y / 32) in
  let d := strip (repeat 0 off ++ shl_loop (length (mag b)) 0 (tc_input b) (y mod 32) 0 (positive b <? 0)) in
  if positive b <? 0 then signed true (complement d) else signed false d.

Lemma pow_split y : 0 <= y -> 2 ^ y = Bp (Z.to_nat (y / 32)) * 2 ^ (y mod 32).
Proof. intros H. rewrite Bp_pow2, <- Z.pow_add_r by lia. f_equal. lia. Qed.


Lemma strip_len_iff l n : limbs l -> (0 < n)%nat -> length l = n ->
  (length (strip l) = n <-> Bp (n - 1) <= eval l).
Proof.
  intros L Hn Hl. split.
  - intros H. assert (Nn : strip l <> []) by (intros E; rewrite E in H; cbn in H; lia).
    pose proof (nrm_low (strip l) (limbs_strip _ L) Nn (proj1 (strip_last _) (strip_strip l))) as Lo.
    rewrite eval_strip in Lo. rewrite H in Lo. unfold Bp. change 4294967296 with B.
    replace (Z.of_nat (n - 1)) with (Z.of_nat n - 1) by lia. exact Lo.
  - intros H. pose proof (strip_length l) as Le.
    pose proof (eval_bound (strip l) (limbs_strip _ L)) as Bd. rewrite eval_strip in Bd.
    destruct (Nat.lt_ge_cases (length (strip l)) n); [|lia].
    assert (Bp (length (strip l)) <= Bp (n - 1)) by (apply Bp_le; lia).
    change (B ^ Z.of_nat (length (strip l))) with (Bp (length (strip l))) in Bd. lia.
Qed.

Lemma Bp_lt_inj i j : Bp i = Bp j -> i = j.
Proof.
  unfold Bp. intros H. apply Z.pow_inj_r in H; lia.
Qed.

Ltac Zify.zify_post_hook ::= idtac.
Lemma shr_core_spec b y : normal b -> 0 < y ->
  normal (shr_core b y) /\
  (value (shr_core b y) = value b / 2 ^ y <-> shr_ok (value b) (length (mag b)) y).
Proof.
  intros N Hy. unfold shr_core. set (off := Z.to_nat (y / 32)).
  assert (Hm : 0 <= y mod 32 < 32) by (apply Z.mod_pos_bound; lia).
  assert (Ho : Z.of_nat off = y / 32) by (unfold off; apply Z2Nat.id, Z.div_pos; lia).
  rewrite shr_loop_digits by (auto; lia). set (n := length (mag b)).
  set (k := (n - off)%nat). set (R := value b / 2 ^ y).
  assert (HR : value b / Bp off / 2 ^ (y mod 32) = R).
  { unfold R. rewrite Z.div_div by (try apply Z.pow_pos_nonneg; pose proof (Bp_pos off); lia).
    rewrite (pow_split y) by lia. reflexivity. }
  rewrite HR.
  assert (Pm : 0 < 2 ^ (y mod 32)) by (apply Z.pow_pos_nonneg; lia).
  assert (Py : 0 < 2 ^ y) by (apply Z.pow_pos_nonneg; lia).
  pose proof (mag_lt b N) as M. fold n in M.
  assert (Hk : Bp n <= Bp k * 2 ^ y).
  { rewrite (pow_split y) by lia. fold off.
    assert (Bp n <= Bp k * Bp off) by (rewrite <- Bp_add; apply Bp_le; lia).
    pose proof (Bp_pos k). pose proof (Bp_pos off). nia. }
  rewrite neg_pos by auto.
  destruct (Z.ltb_spec (value b) 0) as [Hn|Hn].
  - destruct (complement_spec (strip (digits k R)) (limbs_strip _ (digits_limbs _ _))) as (F & E & La).
    split; [apply normal_signed; auto|]. rewrite value_signed, E, eval_strip, digits_eval.
    assert (R0 : - Bp k <= R <= -1).
    { unfold R. split.
      - apply Z.div_le_lower_bound; [lia|]. lia.
      - assert (value b / 2 ^ y < 0) by (apply Z.div_lt_upper_bound; lia). lia. }
    unfold shr_ok. fold R.
    destruct (Nat.eq_dec k 0) as [K0|K0].
    + rewrite K0 in *. rewrite Bp_0 in *. cbn [digits]. change (strip []) with (@nil Z). cbn [length].
      rewrite Bp_0, Z.mod_1_r. split; [|lia]. intros _. right. left.
      pose proof (Z.div_mod y 32 ltac:(lia)). unfold k in K0. lia.
    + assert (K1 : (off < n)%nat) by lia.
      assert (Hmod : R mod Bp k = if R =? - Bp k then 0 else Bp k + R).
      { destruct (Z.eqb_spec R (- Bp k)) as [->|Ne].
        - pose proof (Bp_pos k). rewrite <- (Z.mod_0_l (Bp k)) by lia. replace (- Bp k) with (0 + (-1) * Bp k) by ring.
          apply Z.mod_add. lia.
        - symmetry. apply (Z.mod_unique_pos _ _ (-1)); lia. }
      assert (Hle : (length (strip (digits k R)) <= k)%nat).
      { pose proof (strip_length (digits k R)). rewrite digits_length in *. lia. }
      assert (Q : value b < 0 -> (- (Bp (length (strip (digits k R))) - R mod Bp k) = R <-> Bp (k - 1) <= Bp k + R)).
      { intros _. pose proof (strip_len_iff (digits k R) k (digits_limbs _ _) ltac:(lia) (digits_length _ _)) as SL.
        rewrite digits_eval in SL. rewrite Hmod in *.
        destruct (Z.eqb_spec R (- Bp k)) as [ER|Ne].
        - split; intros H; [|pose proof (Bp_pos (k - 1)); lia]. exfalso.
          assert (Hl : Bp (length (strip (digits k R))) = Bp k) by lia. apply Bp_lt_inj in Hl.
          apply SL in Hl. pose proof (Bp_pos (k - 1)). lia.
        - split; intros H.
          + apply SL. apply Bp_lt_inj. lia.
          + rewrite (proj2 SL) by lia. lia. }
      replace (Z.of_nat n - y / 32) with (Z.of_nat k) by lia.
      replace (32 * (Z.of_nat k - 1)) with (32 * Z.of_nat (k - 1)) by lia.
      rewrite <- !Bp_pow2. split.
      * intros H. right. right. apply Q; auto.
      * intros [H|[H|H]]; [lia|exfalso|apply Q; auto].
        pose proof (Z.div_mod y 32 ltac:(lia)). lia.
  - split; [apply normal_strip, digits_limbs|]. rewrite value_signed, eval_strip, digits_eval.
    split; [unfold shr_ok; left; exact Hn|]. intros _. apply Z.mod_small. unfold R.
    split; [apply Z.div_pos; lia|]. apply Z.div_lt_upper_bound; lia.
Qed.
Ltac Zify.zify_post_hook ::= Z.div_mod_to_equations.


Lemma eval_rep0 n l : eval (repeat 0 n ++ l) = Bp n * eval l.
Proof. rewrite eval_app, eval_zeros, repeat_length. change (B ^ Z.of_nat n) with (Bp n). lia. Qed.

Lemma shl_core_spec b y : normal b -> 0 < y ->
  normal (shl_core b y) /\
  (value (shl_core b y) = value b * 2 ^ y <-> shl_ok (value b) (length (mag b)) y).
Proof.
  intros N Hy. unfold shl_core. set (n := length (mag b)). set (off := Z.to_nat (y / 32)).
  set (bits := y mod 32). assert (Hb : 0 <= bits < 32) by (unfold bits; lia).
  assert (Pb : 0 < 2 ^ bits) by (apply Z.pow_pos_nonneg; lia).
  destruct (tc_input_spec b N) as (L & E).
  destruct (shl_loop_spec (tc_input b) bits (positive b <? 0) L Hb n 0 0 ltac:(lia)) as (EL & Hc).
  cbv zeta in EL, Hc. rewrite EL. clear EL. rewrite Bp_0, Z.div_1_r, Z.add_0_r in *.
  assert (Py : 2 ^ y = Bp off * 2 ^ bits) by (apply pow_split; lia).
  pose proof (mag_lt b N) as M. fold n in M, E.
  assert (EM : eval (tc_input b) mod Bp n = eval (tc_input b)).
  { apply Z.mod_small. rewrite E. destruct (Z.ltb_spec (value b) 0); lia. }
  rewrite EM in *. set (C := eval (tc_input b)) in *. set (V := C * 2 ^ bits) in *.
  pose proof (Bp_pos n) as Pn. pose proof (Bp_pos off) as Po.
  pose proof (Z.div_mod V (Bp n) ltac:(lia)) as DM. pose proof (Z.mod_pos_bound V (Bp n) Pn) as MB.
  rewrite neg_pos by auto.
  assert (P31 : 2 ^ bits <= 2 ^ 31) by (apply Z.pow_le_mono_r; lia). change (2 ^ 31) with 2147483648 in P31.
  assert (Lz : forall l, limbs l -> limbs (repeat 0 off ++ l)) by (intros; apply limbs_app; auto; apply limbs_zeros).
  destruct (Z.ltb_spec (value b) 0) as [Hn|Hn].
  - destruct (Z.eqb_spec (V / Bp n) 0) as [Z0|Z0].
    + rewrite app_nil_r. set (d := repeat 0 off ++ digits n V).
      assert (Ld : limbs d) by (apply Lz, digits_limbs).
      assert (Lend : length d = (off + n)%nat) by (unfold d; rewrite app_length, repeat_length, digits_length; reflexivity).
      destruct (complement_spec (strip d) (limbs_strip _ Ld)) as (F & Ec & La).
      split; [apply normal_signed; auto|]. rewrite value_signed, Ec, eval_strip.
      assert (Ev : eval d = Bp off * V).
      { unfold d. rewrite eval_rep0, digits_eval. f_equal. lia. }
      rewrite Ev.
      assert (Nz : (0 < n)%nat).
      { destruct n; [|lia]. rewrite Bp_0 in M. lia. }
      pose proof (strip_len_iff d (off + n) Ld ltac:(lia) Lend) as SL. rewrite Ev in SL.
      pose proof (strip_length d) as SLe. rewrite Lend in SLe.
      unfold shl_ok. fold bits. replace (32 * (Z.of_nat n - 1)) with (32 * Z.of_nat (n - 1)) by lia.
      rewrite <- !Bp_pow2. rewrite Py.
      assert (Cv : Bp n + value b = C) by lia. rewrite Cv. fold V.
      assert (Veq : value b = C - Bp n) by lia.
      replace (off + n - 1)%nat with (off + (n - 1))%nat in SL by lia. rewrite Bp_add in SL.
      pose proof (Bp_le _ _ SLe) as BL. rewrite Bp_add in BL.
      split.
      * intros H.
        assert (HB : Bp (length (strip d)) = Bp off * Bp n * 2 ^ bits).
        { unfold V in H. rewrite Veq in H. lia. }
        assert (bits = 0).
        { destruct (Z.eq_dec bits 0); auto. exfalso.
          assert (2 ^ 1 <= 2 ^ bits) by (apply Z.pow_le_mono_r; lia). change (2 ^ 1) with 2 in *. nia. }
        right. left. split; auto.
        assert (VC : V = C) by (unfold V; rewrite H0; lia).
        assert (HL : Bp (length (strip d)) = Bp (off + n)).
        { rewrite HB, H0, Bp_add. change (2 ^ 0) with 1. lia. }
        apply Bp_lt_inj in HL. apply SL in HL. rewrite VC in HL.
        apply Z.mul_le_mono_pos_l in HL; lia.
      * intros [H|[(H1 & H2)|(H1 & H2)]]; [lia| |].
        -- assert (VC : V = C) by (unfold V; rewrite H1; lia).
           rewrite (proj2 SL) by (rewrite VC; apply Z.mul_le_mono_nonneg_l; lia).
           rewrite Bp_add, VC, Veq, H1. change (2 ^ 0) with 1. ring.
        -- exfalso. lia.
    + rewrite lor_fill by lia. set (c := V / Bp n) in *.
      set (d := repeat 0 off ++ digits n V ++ [c + (B - 2 ^ bits)]).
      assert (Ld : limbs d).
      { apply Lz, limbs_app; [apply digits_limbs|]. constructor; [rewrite B_val; lia|constructor]. }
      assert (St : strip d = d).
      { apply strip_last. unfold d. rewrite app_assoc, last_last. rewrite B_val. lia. }
      rewrite St. destruct (complement_spec d Ld) as (F & Ec & La).
      split; [apply normal_signed; auto|]. rewrite value_signed, Ec.
      assert (Lend : length d = (off + S n)%nat).
      { unfold d. rewrite !app_length, repeat_length, digits_length. cbn [length]. lia. }
      assert (Ev : eval d = Bp off * (V mod Bp n + Bp n * (c + (B - 2 ^ bits)))).
      { unfold d. rewrite eval_rep0, eval_app, digits_eval, digits_length. cbn [eval].
        change (B ^ Z.of_nat n) with (Bp n). lia. }
      rewrite Ev, Lend, Bp_add, Bp_S, Py.
      assert (Veq : value b = C - Bp n) by lia.
      split.
      * intros _. right. unfold shl_ok. fold bits. rewrite <- Bp_pow2.
        replace (Bp n + value b) with C by lia. fold V.
        destruct (Z.eq_dec bits 0) as [B0|B0].
        -- exfalso. rewrite B0 in Hc. change (2 ^ 0) with 1 in Hc. lia.
        -- right. split; [lia|]. unfold c in *. nia.
      * intros _. rewrite Veq.
        transitivity (Bp off * (V mod Bp n + Bp n * c) - Bp off * Bp n * 2 ^ bits); [ring|].
        rewrite Z.add_comm, <- DM. unfold V. ring.
  - set (tail := if V / Bp n =? 0 then [] else [V / Bp n]).
    assert (Lt : limbs (digits n V ++ tail)).
    { apply limbs_app; [apply digits_limbs|]. unfold tail.
      destruct (V / Bp n =? 0); constructor; [lia|constructor]. }
    split; [apply normal_strip; auto|]. rewrite value_signed, eval_strip, eval_rep0, eval_app, digits_eval, digits_length.
    change (B ^ Z.of_nat n) with (Bp n).
    split; [unfold shl_ok; lia|]. intros _.
    assert (Et : eval tail = V / Bp n).
    { unfold tail. destruct (Z.eqb_spec (V / Bp n) 0) as [->|]; cbn [eval]; lia. }
    rewrite Et, Z.add_comm, <- DM, Py. unfold V. replace C with (value b) by lia. ring.
Qed.

(** *** [shift] *)
Lemma small_amount b : normal b -> (length (mag b) <= 1)%nat -> nth 0 (mag b) 0 = Z.abs (value b).
Proof.
  intros N H. rewrite <- value_abs by auto. destruct (mag b) as [|x [|y t]]; cbn [nth eval length] in *; lia.
Qed.

Lemma amount_len b : normal b -> (1 <? length (mag b))%nat = (B <=? Z.abs (value b)).
Proof.
  intros N. pose proof (limb_count b N). rewrite B_val. lia.
Qed.

Lemma shift_cases b1 b2 (rev : bool) : normal b1 -> normal b2 ->
  let n := if rev then - value b2 else value b2 in
  shift b1 b2 rev =
    if n =? 0 then ERet b1
    else if B <=? Z.abs n then
      (if n <? 0 then ERet (if value b1 <? 0 then signed true [1] else bi0) else EThrow)
    else ERet (if n <? 0 then shr_core b1 (- n) else shl_core b1 n).
Proof.
  intros N1 N2 n. unfold shift.
  assert (Hp : (if rev then - positive b2 else positive b2) =? 0 = (n =? 0)
               /\ ((if rev then - positive b2 else positive b2) <? 0) = (n <? 0)).
  { unfold n. destruct (positive_spec b2 N2) as [(H & -> & _)|[(H & -> & _)|(H & -> & _)]]; destruct rev; split; lia. }
  destruct Hp as (-> & ->). rewrite amount_len by auto.
  replace (Z.abs (value b2)) with (Z.abs n) by (unfold n; destruct rev; lia).
  destruct (Z.eqb_spec n 0); [reflexivity|].
  destruct (Z.leb_spec B (Z.abs n)).
  - destruct (Z.ltb_spec n 0); [|reflexivity]. rewrite neg_pos by auto.
    destruct (Z.ltb_spec (value b1) 0); reflexivity.
  - fold (tc_input b1).
    assert (Hs : nth 0 (mag b2) 0 = Z.abs n).
    { rewrite small_amount; auto; [unfold n; destruct rev; lia|].
      pose proof (limb_count b2 N2). rewrite B_val in *. unfold n in *. destruct rev; lia. }
    rewrite Hs. unfold shr_core, shl_core. destruct (Z.ltb_spec n 0).
    + rewrite Z.abs_neq by lia. destruct (positive b1 <? 0); reflexivity.
    + rewrite Z.abs_eq by lia. destruct (positive b1 <? 0); reflexivity.
Qed.



Theorem shift_spec b1 b2 (rev : bool) : normal b1 -> normal b2 ->
  let n := if rev then - value b2 else value b2 in
  Z.abs n < B ->
  exists r, shift b1 b2 rev = ERet r /\ normal r /\
    (value r = shifted (value b1) n <-> shift_ok (value b1) (length (mag b1)) n).
Proof.
  intros N1 N2 n Hn. rewrite shift_cases by auto. fold n. unfold shifted, shift_ok.
  destruct (Z.eqb_spec n 0) as [->|H0].
  - exists b1. cbn [Z.ltb Z.compare]. change (2 ^ 0) with 1. rewrite Z.mul_1_r. tauto.
  - rewrite (proj2 (Z.leb_gt B (Z.abs n))) by auto. destruct (Z.ltb_spec n 0).
    + exists (shr_core b1 (- n)). split; auto. apply shr_core_spec; auto. lia.
    + exists (shl_core b1 n). split; auto. destruct (shl_core_spec b1 n N1 ltac:(lia)) as (A & C).
      split; auto. rewrite C. split; [tauto|]. intros [E|E]; [lia|auto].
Qed.

(** Far shifts: right shifts saturate, left shifts throw. *)
Theorem shift_far b1 b2 (rev : bool) : normal b1 -> normal b2 ->
  let n := if rev then - value b2 else value b2 in
  B <= Z.abs n ->
  shift b1 b2 rev = if n <? 0 then ERet (if value b1 <? 0 then signed true [1] else bi0) else EThrow.
Proof.
  intros N1 N2 n Hn. rewrite shift_cases by auto. fold n. rewrite B_val in *.
  destruct (Z.eqb_spec n 0); [lia|]. rewrite (proj2 (Z.leb_le _ (Z.abs n))) by auto. reflexivity.
Qed.

Lemma shift_far_value v n nl : B <= - n -> Z.abs v < Bp nl -> Z.of_nat nl <= 134217728 ->
  shifted v n = if v <? 0 then -1 else 0.
Proof.
  intros Hn Hv Hl. unfold shifted. rewrite B_val in *. rewrite (proj2 (Z.ltb_lt n 0)) by lia.
  rewrite Bp_pow2 in Hv.
  assert (2 ^ (32 * Z.of_nat nl) <= 2 ^ (- n)) by (apply Z.pow_le_mono_r; lia).
  destruct (Z.ltb_spec v 0).
  - symmetry. apply (Z.div_unique_pos _ _ (-1) (v + 2 ^ (- n))); lia.
  - apply Z.div_small. lia.
Qed.
