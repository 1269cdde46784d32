(** Conversions of big integers: numbers, machine integers and text. *)
From Coq Require Import ZArith List Bool Lia ZifyBool.
Import ListNotations.
From Verif Require Import BigModel BigSpec BigProofs BigSubProofs BigMulProofs BigBitProofs.
Open Scope Z_scope.
Ltac Zify.zify_post_hook ::= Z.div_mod_to_equations.

(** *** from numbers *)

Lemma sn_limbs_spec fuel : forall m e, 0 <= m < 2 ^ (e + 1) \/ (e < 0 /\ m = 0) -> e < 32 * Z.of_nat fuel ->
  limbs (sn_limbs fuel m e) /\ eval (sn_limbs fuel m e) = m.
Proof.
  induction fuel as [|f IH]; intros m e Hm He; cbn [sn_limbs].
  - cbn [eval]. split; [constructor|]. destruct Hm as [Hm|Hm]; [|lia].
    destruct (Z.eq_dec e (-1)) as [->|]; [change (2 ^ (-1 + 1)) with 1 in Hm; lia|].
    rewrite Z.pow_neg_r in Hm by lia. lia.
  - destruct (Z.leb_spec 0 e) as [H|H].
    + destruct (IH (m / B) (e - 32)) as (L & E).
      * destruct Hm as [Hm|Hm]; [|lia]. assert (0 <= m / B) by (apply Z.div_pos; rewrite ?B_val; lia).
        destruct (Z.lt_ge_cases e 31).
        -- destruct (Z.eq_dec (m / B) 0); [right; lia|]. exfalso.
           assert (2 ^ (e + 1) <= 2 ^ 32) by (apply Z.pow_le_mono_r; lia). change (2 ^ 32) with B in *.
           assert (m / B < 1) by (apply Z.div_lt_upper_bound; rewrite ?B_val in *; lia). lia.
        -- left. split; auto. apply Z.div_lt_upper_bound; [rewrite B_val; lia|].
           replace (e + 1) with (32 + (e - 32 + 1)) in Hm by lia. rewrite Z.pow_add_r in Hm by lia. exact (proj2 Hm).
      * lia.
      * cbn [eval]. rewrite E. split; [|rewrite B_val; lia].
        constructor; auto. rewrite B_val. lia.
    + cbn [eval]. split; [constructor|]. destruct Hm as [Hm|Hm]; [|lia].
      destruct (Z.eq_dec e (-1)) as [->|]; [change (2 ^ (-1 + 1)) with 1 in Hm; lia|].
      rewrite Z.pow_neg_r in Hm by lia. lia.
Qed.

Lemma sn_zeros_spec fuel : forall e, 0 <= e < 84 + 32 * Z.of_nat fuel ->
  exists k e', sn_zeros fuel e = (repeat 0 k, e') /\ e = e' + 32 * Z.of_nat k /\ 0 <= e' < 84 /\
    (k <> 0%nat -> 52 <= e').
Proof.
  induction fuel as [|f IH]; intros e He; cbn [sn_zeros].
  - exists 0%nat, e. cbn [repeat]. repeat split; try lia.
  - destruct (Z.leb_spec 84 e).
    + destruct (IH (e - 32)) as (k & e' & E & H1 & H2 & H3); [lia|]. rewrite E.
      exists (S k), e'. cbn [repeat]. repeat split; try lia.
    + exists 0%nat, e. cbn [repeat]. repeat split; try lia.
Qed.

Ltac Zify.zify_post_hook ::= idtac.
Lemma set_number_spec i : double_int i -> normal (set_number i) /\ value (set_number i) = i.
Proof.
  intros (m & k & Hk & Hk2 & Hm & Hi). unfold set_number.
  destruct (Z.eqb_spec i 0) as [E0|E0]; [subst; split; [apply normal_bi0|rewrite E0; apply value_bi0]|].
  set (a := Z.abs i). assert (Ha : 0 < a) by lia.
  assert (Pk : 0 < 2 ^ k) by (apply Z.pow_pos_nonneg; lia).
  assert (Ea : a = Z.abs m * 2 ^ k) by (unfold a; rewrite Hi, Z.abs_mul, (Z.abs_eq (2 ^ k)) by lia; reflexivity).
  assert (Hm0 : 0 < Z.abs m) by nia.
  pose proof (Z.log2_spec a Ha) as LS. set (e0 := Z.log2 a) in *.
  assert (He0 : 0 <= e0) by apply Z.log2_nonneg.
  assert (e0 < 1024).
  { apply Z.log2_lt_pow2; auto. rewrite Ea. replace 1024 with (53 + 971) by lia. rewrite Z.pow_add_r by lia.
    assert (2 ^ k <= 2 ^ 971) by (apply Z.pow_le_mono_r; lia). nia. }
  (* a is divisible by 2^(e0-52) *)
  assert (Hdiv : 52 < e0 -> (2 ^ (e0 - 52) | a)).
  { intros H1. assert (e0 - 52 <= k).
    { destruct (Z.lt_ge_cases k (e0 - 52)); [|lia]. exfalso.
      assert (2 ^ e0 <= 2 ^ (52 + (e0 - 52))) by (apply Z.pow_le_mono_r; lia).
      assert (2 ^ (53 + k) <= 2 ^ e0) by (apply Z.pow_le_mono_r; lia).
      rewrite Z.pow_add_r in H3 by lia. nia. }
    exists (Z.abs m * 2 ^ (k - (e0 - 52))). rewrite <- Z.mul_assoc, <- Z.pow_add_r by lia.
    replace (k - (e0 - 52) + (e0 - 52)) with k by lia. exact Ea. }
  assert (HM : 2 ^ 52 <= dbl_man a < 2 ^ 53 /\
     (e0 <= 52 -> dbl_man a = a * 2 ^ (52 - e0)) /\ (52 < e0 -> a = dbl_man a * 2 ^ (e0 - 52))).
  { unfold dbl_man, dbl_exp. fold e0. destruct (Z.leb_spec e0 52).
    - split; [|split; [auto|lia]].
      assert (P : 0 < 2 ^ (52 - e0)) by (apply Z.pow_pos_nonneg; lia).
      replace (2 ^ 52) with (2 ^ e0 * 2 ^ (52 - e0)) by (rewrite <- Z.pow_add_r by lia; f_equal; lia).
      replace (2 ^ 53) with (2 ^ Z.succ e0 * 2 ^ (52 - e0)) by (rewrite <- Z.pow_add_r by lia; f_equal; lia).
      nia.
    - destruct (Hdiv H0) as (q & Hq).
      assert (P : 0 < 2 ^ (e0 - 52)) by (apply Z.pow_pos_nonneg; lia).
      rewrite Hq. rewrite Z.div_mul by lia. split; [|split; [lia|reflexivity]].
      replace (2 ^ e0) with (2 ^ 52 * 2 ^ (e0 - 52)) in LS by (rewrite <- Z.pow_add_r by lia; f_equal; lia).
      replace (2 ^ Z.succ e0) with (2 ^ 53 * 2 ^ (e0 - 52)) in LS by (rewrite <- Z.pow_add_r by lia; f_equal; lia).
      nia. }
  destruct HM as (HM & HM1 & HM2). set (M := dbl_man a) in *.
  unfold dbl_exp. fold e0.
  destruct (sn_zeros_spec 40 e0 ltac:(lia)) as (z & e & -> & He & He' & Hz).
  assert (G : forall l, limbs l -> Bp z * eval l = a ->
    normal (signed (i <? 0) (strip (repeat 0 z ++ l))) /\ value (signed (i <? 0) (strip (repeat 0 z ++ l))) = i).
  { intros l Ll El.
    assert (limbs (repeat 0 z ++ l)) by (apply limbs_app; auto; apply limbs_zeros).
    split; [apply normal_strip; auto|]. rewrite value_signed, eval_strip, eval_app, eval_zeros, repeat_length.
    change (B ^ Z.of_nat z) with (Bp z). destruct (Z.ltb_spec i 0); lia. }
  apply G.
  - destruct (Z.ltb_spec 52 e).
    + constructor.
      * pose proof (Z.mod_pos_bound (M * 2 ^ (e - 52)) B ltac:(reflexivity)). rewrite B_val in *. lia.
      * apply sn_limbs_spec; [|lia]. left. split; [apply Z.div_pos; [lia|apply Z.pow_pos_nonneg; lia]|].
        apply Z.div_lt_upper_bound; [apply Z.pow_pos_nonneg; lia|].
        rewrite <- Z.pow_add_r by lia. replace (32 - (e - 52) + (e - 32 + 1)) with 53 by lia. lia.
    + destruct (Z.ltb_spec e 52).
      * apply sn_limbs_spec; [|lia]. left. split; [apply Z.div_pos; [lia|apply Z.pow_pos_nonneg; lia]|].
        apply Z.div_lt_upper_bound; [apply Z.pow_pos_nonneg; lia|].
        rewrite <- Z.pow_add_r by lia. replace (52 - e + (e + 1)) with 53 by lia. lia.
      * apply sn_limbs_spec; [|lia]. left. replace (e + 1) with 53 by lia. lia.
  - assert (Pz : Bp z = 2 ^ (32 * Z.of_nat z)) by apply Bp_pow2.
    destruct (Z.ltb_spec 52 e).
    + cbn [eval].
      assert (Hq : M / 2 ^ (32 - (e - 52)) = M * 2 ^ (e - 52) / B).
      { change B with (2 ^ 32). replace (2 ^ 32) with (2 ^ (32 - (e - 52)) * 2 ^ (e - 52))
          by (rewrite <- Z.pow_add_r by lia; f_equal; lia).
        rewrite Z.div_mul_cancel_r; try reflexivity; apply Z.pow_nonzero; lia. }
      destruct (sn_limbs_spec 4 (M / 2 ^ (32 - (e - 52))) (e - 32)) as (_ & ->); [|lia|].
      { left. split; [apply Z.div_pos; [lia|apply Z.pow_pos_nonneg; lia]|].
        apply Z.div_lt_upper_bound; [apply Z.pow_pos_nonneg; lia|].
        rewrite <- Z.pow_add_r by lia. replace (32 - (e - 52) + (e - 32 + 1)) with 53 by lia. lia. }
      rewrite Hq. change 4294967296 with B.
      rewrite Z.add_comm, <- Z.div_mod by discriminate.
      rewrite HM2 by lia. rewrite Pz.
      transitivity (M * (2 ^ (32 * Z.of_nat z) * 2 ^ (e - 52))); [ring|].
      rewrite <- Z.pow_add_r by lia. f_equal. f_equal. lia.
    + destruct (Z.ltb_spec e 52).
      * assert (z = 0%nat) as -> by lia. rewrite Bp_0.
        destruct (sn_limbs_spec 4 (M / 2 ^ (52 - e)) e) as (_ & ->); [|lia|].
        { left. split; [apply Z.div_pos; [lia|apply Z.pow_pos_nonneg; lia]|].
          apply Z.div_lt_upper_bound; [apply Z.pow_pos_nonneg; lia|].
          rewrite <- Z.pow_add_r by lia. replace (52 - e + (e + 1)) with 53 by lia. lia. }
        rewrite HM1 by lia. replace (52 - e0) with (52 - e) by lia.
        rewrite Z.div_mul by (apply Z.pow_nonzero; lia). lia.
      * assert (e = 52) by lia. subst e.
        destruct (sn_limbs_spec 4 M 52) as (_ & ->); [|lia|]; [left; lia|].
        rewrite Pz. destruct (Nat.eq_dec z 0) as [->|].
        -- rewrite HM1 by lia. replace (52 - e0) with 0 by lia. cbn [Z.of_nat Z.mul]. change (2 ^ 0) with 1. lia.
        -- rewrite HM2 by lia. replace (e0 - 52) with (32 * Z.of_nat z) by lia. ring.
Qed.
Ltac Zify.zify_post_hook ::= Z.div_mod_to_equations.


Lemma compare_number_spec b num k : normal b -> 0 <= k -> double_int (Z.quot num (2 ^ k)) ->
  compare_number b (NFin num k) = num_rel (value b) num k.
Proof.
  intros N Hk Hd. unfold compare_number, num_rel. destruct (set_number_spec _ Hd) as (Ns & Vs).
  rewrite compare_spec by auto. rewrite Vs. set (P := 2 ^ k) in *.
  assert (HP : 0 < P) by (apply Z.pow_pos_nonneg; lia). set (i := Z.quot num P) in *.
  pose proof (Z.quot_rem' num P) as QR. fold i in QR. set (r := Z.rem num P) in *.
  assert (HR : Z.abs r < P /\ (0 <= num -> 0 <= r /\ 0 <= i) /\ (num <= 0 -> r <= 0 /\ i <= 0)).
  { pose proof (Z.rem_bound_abs num P ltac:(lia)). split; [unfold r; lia|].
    split; intros; split.
    - apply Z.rem_nonneg; lia.
    - apply Z.quot_pos; lia.
    - apply Z.rem_nonpos; lia.
    - unfold i. replace num with (- (- num)) by lia. rewrite Z.quot_opp_l by lia.
      pose proof (Z.quot_pos (- num) P ltac:(lia) ltac:(lia)). lia. }
  unfold cmpZ. destruct (Z.eqb_spec (value b) i) as [->|Ne].
  - destruct (Z.ltb_spec (i * P) num); destruct (Z.eqb_spec (i * P) num); try lia; try reflexivity.
    + destruct (Z.ltb_spec num (i * P)); try lia; reflexivity.
    + destruct (Z.ltb_spec num (i * P)); try lia; reflexivity.
  - destruct (Z.ltb_spec (value b) i).
    + destruct (Z.eqb_spec (value b * P) num); [exfalso|].
      * destruct (Z.lt_ge_cases num 0); nia.
      * destruct (Z.ltb_spec (value b * P) num); [reflexivity|]. exfalso. nia.
    + destruct (Z.eqb_spec (value b * P) num); [exfalso|].
      * destruct (Z.lt_ge_cases num 0); nia.
      * destruct (Z.ltb_spec (value b * P) num); [|reflexivity]. exfalso. nia.
Qed.

(** *** machine integers *)
Lemma from_int64_spec i : - 2 ^ 63 < i < 2 ^ 63 ->
  exists b, from_int64 i = Some b /\ normal b /\ value b = i.
Proof.
  intros H. unfold from_int64. destruct (Z.eqb_spec i (- 2 ^ 63)); [lia|].
  eexists; split; [reflexivity|].
  assert (L : limbs [Z.abs i mod B; Z.abs i / B]).
  { change (2 ^ 63) with 9223372036854775808 in *. repeat constructor; rewrite B_val; lia. }
  split; [apply normal_strip; auto|]. rewrite value_signed, eval_strip. cbn [eval].
  rewrite B_val. destruct (Z.ltb_spec i 0); lia.
Qed.

Lemma from_int_spec i : - 2 ^ 31 < i < 2 ^ 31 -> normal (from_int i) /\ value (from_int i) = i.
Proof.
  intros H. unfold from_int. change (2 ^ 31) with 2147483648 in *.
  assert (L : limbs [Z.abs i]) by (repeat constructor; lia).
  split; [apply normal_strip; auto|]. rewrite value_signed, eval_strip. cbn [eval]. destruct (Z.ltb_spec i 0); lia.
Qed.

Lemma from_uint64_spec i : 0 <= i < 2 ^ 64 -> normal (from_uint64 i) /\ value (from_uint64 i) = i.
Proof.
  intros H. unfold from_uint64. change (2 ^ 64) with 18446744073709551616 in *.
  assert (L : limbs [i mod B; i / B]) by (repeat constructor; rewrite B_val; lia).
  split; [apply normal_strip; auto|]. rewrite value_signed, eval_strip. cbn [eval]. rewrite B_val. lia.
Qed.

Lemma wrap64_spec z : - 2 ^ 63 <= wrap64 z < 2 ^ 63 /\ exists q, wrap64 z = z + q * 2 ^ 64.
Proof.
  unfold wrap64. change (2 ^ 63) with 9223372036854775808. change (2 ^ 64) with 18446744073709551616. split; [lia|].
  exists (- ((z + 9223372036854775808) / 18446744073709551616)). lia.
Qed.

(** The low 64 bits as a signed integer; undefined exactly when they are the
    minimum and the number is negative. *)
Lemma to_int64_spec b : normal b ->
  to_int64 b = if (value b <? 0) && (value b mod 2 ^ 64 =? 2 ^ 63) then None
               else Some (wrap64 (value b)).
Proof.
  intros N. unfold to_int64.
  assert (V := value_abs b N). destruct N as (L & A & Z0).
  set (x := nth 0 (mag b) 0 + (if (1 <? length (mag b))%nat then nth 1 (mag b) 0 * B else 0)).
  assert (Hx : exists q, Z.abs (value b) = x + q * 2 ^ 64).
  { rewrite <- V. unfold x. destruct (mag b) as [|y [|z t]].
    - exists 0. cbn. lia.
    - exists 0. cbn [length nth eval]. change (1 <? 1)%nat with false. lia.
    - exists (eval t). cbn [length nth eval]. change (1 <? S (S (length t)))%nat with true.
      rewrite B_val. change (2 ^ 64) with 18446744073709551616. lia. }
  destruct Hx as (q & Hx).
  assert (W : forall z z' t, z = z' + t * 2 ^ 64 -> wrap64 z = wrap64 z').
  { intros z z' t ->. unfold wrap64. f_equal. replace (z' + t * 2 ^ 64 + 2 ^ 63) with (z' + 2 ^ 63 + t * 2 ^ 64) by ring.
    apply Z.mod_add. discriminate. }
  destruct (positive_spec b (conj L (conj A Z0))) as [(S1&E1&_)|[(S1&E1&_)|(S1&E1&_)]]; rewrite E1; cbn [Z.eqb Z.ltb Z.compare].
  - rewrite (proj2 (Z.ltb_lt _ _) S1). cbn [andb].
    rewrite <- (W (Z.abs (value b)) x q) by auto. rewrite Z.abs_neq by lia.
    unfold wrap64. change (- 2 ^ 63) with (-9223372036854775808).
    change (2 ^ 63) with 9223372036854775808. change (2 ^ 64) with 18446744073709551616.
    destruct (Z.eqb_spec ((- value b + 9223372036854775808) mod 18446744073709551616 - 9223372036854775808) (-9223372036854775808));
    destruct (Z.eqb_spec (value b mod 18446744073709551616) 9223372036854775808); try lia; try reflexivity.
    apply f_equal. set (M := 18446744073709551616) in *. set (h := 9223372036854775808) in *.
    pose proof (Z.div_mod (- value b + h) M ltac:(discriminate)) as DM.
    pose proof (Z.mod_pos_bound (- value b + h) M ltac:(reflexivity)) as MB.
    rewrite <- (Z.mod_unique_pos (value b + h) M (- ((- value b + h) / M)) (M - (- value b + h) mod M));
      unfold M, h in *; lia.
  - rewrite (proj2 (Z.ltb_ge _ _)) by lia. cbn [andb]. rewrite S1. reflexivity.
  - rewrite (proj2 (Z.ltb_ge _ _)) by lia. cbn [andb]. f_equal. symmetry. apply (W _ _ q). lia.
Qed.

Lemma to_uint64_spec b : normal b -> (0 <= value b \/ value b mod 2 ^ 64 <> 2 ^ 63) ->
  to_uint64 b = Some (value b mod 2 ^ 64).
Proof.
  intros N H. unfold to_uint64. rewrite to_int64_spec by auto.
  destruct ((value b <? 0) && (value b mod 2 ^ 64 =? 2 ^ 63)) eqn:E; [lia|].
  f_equal. destruct (wrap64_spec (value b)) as (_ & q & ->). apply Z.mod_add. discriminate.
Qed.

(** *** text *)
Lemma div_int_spec l n : limbs l -> 2 <= n < B ->
  let '(q, r) := div_int l n in
  limbs q /\ last q 1 <> 0 /\ eval q = eval l / n /\ r = eval l mod n.
Proof.
  intros L Hn. unfold div_int.
  assert (K : let '(q, r) := div_int_loop l n in limbs q /\ eval q = eval l / n /\ r = eval l mod n).
  { induction L as [|x l Hx L IH]; cbn [div_int_loop].
    - cbn [eval]. rewrite Z.div_0_l, Z.mod_0_l by lia. repeat split. constructor.
    - destruct (div_int_loop l n) as [q r]. destruct IH as (Lq & Eq & Er). cbn [eval].
      change 4294967296 with B in *. set (X := eval l) in *.
      assert (0 <= r < n) by (subst r; apply Z.mod_pos_bound; lia).
      assert (DM : X = n * eval q + r) by (rewrite Eq, Er; apply Z.div_mod; lia).
      assert (DM2 := Z.div_mod (x + r * B) n ltac:(lia)). assert (MB := Z.mod_pos_bound (x + r * B) n ltac:(lia)).
      assert (Hd : x + B * X = (x + r * B) + eval q * B * n) by (rewrite DM; ring).
      split; [constructor; auto|].
      + split; [apply Z.div_pos; rewrite ?B_val in *; lia|]. apply Z.div_lt_upper_bound; [lia|]. change 4294967296 with B. nia.
      + rewrite Hd, Z.div_add, Z.mod_add by lia. lia. }
  destruct (div_int_loop l n) as [q r]. destruct K as (Lq & Eq & Er).
  repeat split; auto; [apply limbs_strip; auto|apply strip_last, strip_strip|rewrite eval_strip; auto].
Qed.


Lemma numeral_snoc ds d radix : numeral (ds ++ [d]) radix = numeral ds radix * radix + d.
Proof. unfold numeral. rewrite fold_left_app. reflexivity. Qed.

Lemma to_string_loop_spec radix : 2 <= radix <= 36 ->
  forall fuel l cb, limbs l -> last l 1 <> 0 -> eval l < 2 ^ Z.of_nat fuel ->
  exists ds, to_string_loop fuel l radix cb = Some (map digit_char ds ++ cb) /\
    digits_ok ds radix /\ numeral ds radix = eval l /\ hd 1 ds <> 0 /\ (eval l <> 0 -> ds <> []).
Proof.
  intros Hr. induction fuel as [|f IH]; intros l cb L A Hf.
  - assert (eval l = 0) by (pose proof (eval_nonneg l L); change (2 ^ Z.of_nat 0) with 1 in Hf; lia).
    rewrite (eval_zero l L A H). exists []. cbn. repeat split; try constructor; lia.
  - destruct l as [|x t]; [exists []; cbn; repeat split; try constructor; lia|].
    pose proof (div_int_spec (x :: t) radix L ltac:(rewrite B_val; lia)) as D. cbn [to_string_loop].
    destruct (div_int (x :: t) radix) as [q r]. destruct D as (Lq & Aq & Eq & Er).
    set (X := eval (x :: t)) in *.
    assert (HX : 0 < X).
    { pose proof (eval_nonneg _ L). fold X in H. destruct (Z.eq_dec X 0); [|lia].
      pose proof (eval_zero _ L A e). discriminate. }
    assert (DM := Z.div_mod X radix ltac:(lia)). assert (MB := Z.mod_pos_bound X radix ltac:(lia)).
    destruct (IH q (digit_char r :: cb) Lq Aq) as (ds & E & D1 & D2 & D3 & D4).
    { rewrite Eq. apply Z.div_lt_upper_bound; [lia|]. rewrite Nat2Z.inj_succ, Z.pow_succ_r in Hf by lia. nia. }
    exists (ds ++ [r]). rewrite E. repeat split.
    + rewrite map_app, <- app_assoc. reflexivity.
    + apply Forall_app. split; auto. constructor; [lia|constructor].
    + rewrite numeral_snoc, D2. lia.
    + destruct ds as [|d ds]; [|exact D3]. cbn [app hd]. cbn in D2. lia.
    + intros _ Hn. destruct ds; discriminate.
Qed.

Lemma digit_char_inv d : 0 <= d < 36 -> char_digit (digit_char d) = Some d.
Proof. intros H. unfold char_digit, digit_char. destruct (Z.ltb_spec d 10); repeat match goal with |- context [if ?c then _ else _] => destruct c eqn:? end; try lia; f_equal; lia. Qed.
Lemma hex_char_inv d : 0 <= d < 16 -> hex_char (digit_char d) = Some d.
Proof. intros H. unfold hex_char, digit_char. destruct (Z.ltb_spec d 10); repeat match goal with |- context [if ?c then _ else _] => destruct c eqn:? end; try lia; f_equal; lia. Qed.

Theorem to_string_spec b radix : normal b -> 2 <= radix <= 36 ->
  exists ds, to_string b radix = Some ((if value b <? 0 then [45] else []) ++ map digit_char ds) /\
    digits_ok ds radix /\ numeral ds radix = Z.abs (value b) /\
    ds <> [] /\ (hd 1 ds = 0 -> ds = [0]).
Proof.
  intros N Hr. unfold to_string. assert (V := value_abs b N). pose proof N as (L & A & Z0).
  destruct (to_string_loop_spec radix Hr (32 * length (mag b)) (mag b) [] L A) as (ds & E & D1 & D2 & D3 & D4).
  { pose proof (eval_bound _ L). replace (Z.of_nat (32 * length (mag b))) with (32 * Z.of_nat (length (mag b))) by lia.
    rewrite Z.pow_mul_r by lia. change (2 ^ 32) with B. lia. }
  rewrite app_nil_r in E.
  destruct (positive_spec b N) as [(S1&E1&_)|[(S1&E1&_)|(S1&E1&_)]]; rewrite E1; cbn [Z.eqb Z.ltb Z.compare].
  - exists ds. rewrite E. rewrite (proj2 (Z.ltb_lt _ _) S1). split; [reflexivity|]. split; auto. split; [lia|].
    split; [apply D4; lia|]. intros H. exfalso. auto.
  - exists [0]. rewrite S1. cbn. repeat split; auto; try discriminate. constructor; [lia|constructor].
  - exists ds. rewrite E. rewrite (proj2 (Z.ltb_ge _ _)) by lia. split; [reflexivity|]. split; auto. split; [lia|].
    split; [apply D4; lia|]. intros H. exfalso. auto.
Qed.

Lemma from_digits_loop_spec base : 2 <= base <= 36 ->
  forall ds obi, limbs obi -> last obi 1 <> 0 -> digits_ok ds base ->
  let l := from_digits_loop obi ds base in
  limbs l /\ last l 1 <> 0 /\ eval l = fold_left (fun v d => v * base + d) ds (eval obi).
Proof.
  intros Hb. induction ds as [|d ds IH]; intros obi L A D; cbn [from_digits_loop fold_left]; [auto|].
  inversion D as [|d' ds' Hd Dd]; subst.
  assert (K : limbs (mag (mul_int (mkbi false obi) base 0)) /\ last (mag (mul_int (mkbi false obi) base 0)) 1 <> 0
    /\ eval (mag (mul_int (mkbi false obi) base 0)) = eval obi * base).
  { destruct obi as [|o os].
    - unfold mul_int. destruct (Z.eqb_spec base 0); [lia|]. destruct (Z.eqb_spec base 1); [lia|].
      cbn. repeat split; [constructor|lia].
    - assert (N : normal (mkbi false (o :: os))) by (repeat split; auto).
      destruct (mul_int_spec (mkbi false (o :: os)) base 0 N) as (N' & V' & _); try (rewrite ?B_val; lia); [discriminate|].
      split; [apply N'|]. split; [apply N'|]. rewrite V'. cbn [mag]. rewrite Bp_0. ring. }
  destruct K as (K1 & K2 & K3).
  assert (Hd' : 0 <= d < B) by (rewrite B_val; lia).
  rewrite self_add_int_eq by (auto; lia).
  destruct (add_int_spec _ d K1 Hd') as (E & F).
  pose proof (add_int_last _ d K1 K2 Hd') as La.
  destruct (IH _ F La Dd) as (G1 & G2 & G3). repeat split; auto. rewrite G3, E, K3. reflexivity.
Qed.

Theorem from_digits_spec ds base : 2 <= base <= 36 -> digits_ok ds base ->
  normal (from_digits ds base) /\ value (from_digits ds base) = numeral ds base.
Proof.
  intros Hb D. destruct (from_digits_loop_spec base Hb ds [] ltac:(constructor) ltac:(cbn; lia) D) as (L & A & E).
  unfold from_digits. split; [apply normal_signed; auto|]. rewrite value_signed. exact E.
Qed.
