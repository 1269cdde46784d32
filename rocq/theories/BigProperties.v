(** Property theorems C20 to C28 (BigInt) and C49 (machine integers). *)
From Coq Require Import ZArith List Bool Lia.
Import ListNotations.
From Verif Require Import BigModel BigSpec BigProofs BigSubProofs BigMulProofs BigBitProofs
  BigShiftProofs BigTextProofs BigDivProofs.
Open Scope Z_scope.

(** [mk n z]: the big integer [z], which has at most [n] limbs. *)
Definition mk (n : nat) (z : Z) : bi := signed (z <? 0) (strip (digits n (Z.abs z))).

Theorem C28_every_integer_has_normal_form : forall n z, Z.abs z < Bp n ->
  normal (mk n z) /\ value (mk n z) = z.
Proof.
  intros n z H. split; [apply normal_strip, digits_limbs|].
  unfold mk. rewrite value_signed, eval_strip, digits_eval, Z.mod_small by lia.
  destruct (Z.ltb_spec z 0); lia.
Qed.
Print Assumptions C28_every_integer_has_normal_form.

(** ** C20 *)

Theorem C20_add_exact_iff : forall a b, normal a -> normal b ->
  normal (big_add a b) /\
  (value (big_add a b) = value a + value b <->
   same_sign (value a) (value b) \/
   borrow_chain (Z.max (Z.abs (value a)) (Z.abs (value b))) (Z.min (Z.abs (value a)) (Z.abs (value b)))).
Proof. exact add_spec. Qed.
Print Assumptions C20_add_exact_iff.

Theorem C20_sub_exact_iff : forall a b, normal a -> normal b ->
  normal (big_subtract a b) /\
  (value (big_subtract a b) = value a - value b <->
   ~ same_sign (value a) (value b) \/
   borrow_chain (Z.max (Z.abs (value a)) (Z.abs (value b))) (Z.min (Z.abs (value a)) (Z.abs (value b)))).
Proof. exact subtract_spec. Qed.
Print Assumptions C20_sub_exact_iff.

(** Below 2^64 both are always exact. *)
Theorem C20_add_sub_small : forall a b, normal a -> normal b ->
  Z.abs (value a) < 18446744073709551616 -> Z.abs (value b) < 18446744073709551616 ->
  value (big_add a b) = value a + value b /\ value (big_subtract a b) = value a - value b.
Proof.
  intros a b Na Nb Ha Hb. split.
  - apply (proj2 (add_spec a b Na Nb)). right. apply borrow_chain_two; lia.
  - apply (proj2 (subtract_spec a b Na Nb)). right. apply borrow_chain_two; lia.
Qed.
Print Assumptions C20_add_sub_small.

Theorem C20_negate_inc_dec_not : forall a, normal a ->
  value (unary_minus a) = - value a /\ value (inc a) = value a + 1 /\
  value (dec a) = value a - 1 /\ value (bitwise_not a) = Z.lnot (value a).
Proof.
  intros a N. repeat split.
  - apply minus_spec; auto.
  - apply inc_spec; auto.
  - apply dec_spec; auto.
  - rewrite (proj2 (not_spec a N)). unfold Z.lnot. lia.
Qed.
Print Assumptions C20_negate_inc_dec_not.

(** The property as stated is false: 5*2^64 + 5*2^32 - 1. *)
Theorem C20_sub_exact_refuted : exists a b, normal a /\ normal b /\
  value (big_subtract a b) <> value a - value b.
Proof.
  exists (mk 3 (5 * 2 ^ 64 + 5 * 2 ^ 32)), (mk 1 1).
  split; [apply C28_every_integer_has_normal_form; reflexivity|].
  split; [apply C28_every_integer_has_normal_form; reflexivity|]. vm_compute. discriminate.
Qed.
Print Assumptions C20_sub_exact_refuted.
Theorem C20_add_exact_refuted : exists a b, normal a /\ normal b /\
  value (big_add a b) <> value a + value b.
Proof.
  exists (mk 3 (5 * 2 ^ 64 + 5 * 2 ^ 32)), (mk 1 (-1)).
  split; [apply C28_every_integer_has_normal_form; reflexivity|].
  split; [apply C28_every_integer_has_normal_form; reflexivity|]. vm_compute. discriminate.
Qed.
Print Assumptions C20_add_exact_refuted.

Example C20_witness : value (big_subtract (mk 2 18446744073709551615) (mk 2 4294967299)) = 18446744069414584316
  /\ value (big_add (mk 2 18446744073709551615) (mk 1 1)) = 18446744073709551616
  /\ value (bitwise_not (mk 2 (-18446744073709551615))) = 18446744073709551614
  /\ value (inc (mk 2 (-4294967296))) = -4294967295.
Proof. vm_compute. auto. Qed.

(** ** C21 *)

Theorem C21_mul_exact_iff : forall a b, normal a -> normal b ->
  normal (mul a b) /\
  (mul_sign_fault (value a) (value b) -> value (mul a b) = - (value a * value b)) /\
  (~ mul_sign_fault (value a) (value b) -> value (mul a b) = value a * value b).
Proof. exact mul_spec. Qed.
Print Assumptions C21_mul_exact_iff.

Theorem C21_exp_exact_iff : forall a b, normal a -> normal b ->
  (value b < 0 -> exponentiate a b = EThrow) /\
  (value a <> 0 -> 4294967296 <= value b -> exponentiate a b = EThrow) /\
  (0 <= value b -> (value a = 0 \/ value b < 4294967296) ->
   exists r, exponentiate a b = ERet r /\ normal r /\
     (exp_sign_fault (value a) (value b) -> value r = - value a) /\
     (~ exp_sign_fault (value a) (value b) -> value r = value a ^ value b)).
Proof. exact exp_spec. Qed.
Print Assumptions C21_exp_exact_iff.

(** (-2n) * (2n**32n + 1n) is positive, (-5n)**1n is 5n, 1n**(2n**32n) throws. *)
Theorem C21_mul_exact_refuted : exists a b, normal a /\ normal b /\ value (mul a b) <> value a * value b.
Proof.
  exists (mk 1 (-2)), (mk 2 4294967297).
  split; [apply C28_every_integer_has_normal_form; reflexivity|].
  split; [apply C28_every_integer_has_normal_form; reflexivity|]. vm_compute. discriminate.
Qed.
Print Assumptions C21_mul_exact_refuted.
Theorem C21_exp_exact_refuted : exists a b r, normal a /\ normal b /\ 0 <= value b /\
  exponentiate a b = ERet r /\ value r <> value a ^ value b.
Proof.
  exists (mk 1 (-5)), (mk 1 1), (mk 1 5).
  split; [apply C28_every_integer_has_normal_form; reflexivity|].
  split; [apply C28_every_integer_has_normal_form; reflexivity|]. vm_compute. repeat split; discriminate.
Qed.
Print Assumptions C21_exp_exact_refuted.
Theorem C21_exp_of_one_throws_refuted : exists a b, normal a /\ normal b /\ value a = 1 /\ 0 <= value b /\
  exponentiate a b = EThrow.
Proof.
  exists (mk 1 1), (mk 2 4294967296).
  split; [apply C28_every_integer_has_normal_form; reflexivity|].
  split; [apply C28_every_integer_has_normal_form; reflexivity|]. vm_compute. repeat split; discriminate.
Qed.
Print Assumptions C21_exp_of_one_throws_refuted.

Example C21_witness :
  ~ mul_sign_fault (value (mk 3 (-1208925819614629174706189))) (value (mk 2 18446744073709551557)) /\
  value (mul (mk 3 (-1208925819614629174706189)) (mk 2 18446744073709551557))
    = (-1208925819614629174706189) * 18446744073709551557 /\
  match exponentiate (mk 1 (-7)) (mk 1 31) with ERet r => value r = (-7) ^ 31 | _ => False end.
Proof.
  split; [|vm_compute; auto]. unfold mul_sign_fault. vm_compute. intros (_ & H & _). discriminate.
Qed.

(** ** C22 *)

Theorem C22_div_zero_throws : forall a b, normal b -> value b = 0 -> div a b = DThrow.
Proof. exact div_zero. Qed.
Print Assumptions C22_div_zero_throws.

(** Exact whenever the subtractions of the long division are: [Z.quot] and
    [Z.rem] are truncated division. *)
Theorem C22_div_exact_partial : forall a b, normal a -> normal b -> value b <> 0 ->
  step_ok (Z.abs (value a)) (Z.abs (value b)) (length (mag b)) ->
  exists q r, div a b = DRet q r /\ normal q /\ normal r /\
    value q = Z.quot (value a) (value b) /\ value r = Z.rem (value a) (value b).
Proof. exact div_spec. Qed.
Print Assumptions C22_div_exact_partial.

(** In particular for every dividend below 2^64 and for every divisor below 2^32. *)
Theorem C22_div_small_exact : forall a b, normal a -> normal b -> value b <> 0 ->
  Z.abs (value a) < 18446744073709551616 \/ Z.abs (value b) < 4294967296 ->
  exists q r, div a b = DRet q r /\ normal q /\ normal r /\
    value a = value q * value b + value r /\ Z.abs (value r) < Z.abs (value b) /\
    (value r = 0 \/ Z.sgn (value r) = Z.sgn (value a)).
Proof.
  intros a b Na Nb Hz H.
  assert (SO : step_ok (Z.abs (value a)) (Z.abs (value b)) (length (mag b))).
  { destruct H as [H|H]; [apply step_ok_two; lia|].
    replace (length (mag b)) with 1%nat; [apply step_ok_limb; lia|].
    pose proof (limb_count b Nb). pose proof (value_abs b Nb) as V.
    destruct (mag b) as [|x t]; [cbn in V; lia|]. destruct t; cbn [length] in *; lia. }
  destruct (div_spec a b Na Nb Hz SO) as (q & r & E & Nq & Nr & Vq & Vr).
  exists q, r. repeat split; auto; try apply Nq; try apply Nr.
  - rewrite Vq, Vr, Z.mul_comm. apply Z.quot_rem'.
  - rewrite Vr. apply Z.rem_bound_abs. auto.
  - rewrite Vr. destruct (Z.eq_dec (Z.rem (value a) (value b)) 0); [auto|right].
    apply Z.rem_sign_nz; auto.
Qed.
Print Assumptions C22_div_small_exact.

(** (2^200+2^100-5) / (2^64+3): the law fails. *)
Theorem C22_div_exact_refuted : exists a b q r, normal a /\ normal b /\ value b <> 0 /\
  div a b = DRet q r /\ value a <> value q * value b + value r.
Proof.
  destruct (div (mk 7 (2 ^ 200 + 2 ^ 100 - 5)) (mk 3 (2 ^ 64 + 3))) as [| |q r] eqn:E.
  - exfalso. vm_compute in E. discriminate.
  - exfalso. vm_compute in E. discriminate.
  - exists (mk 7 (2 ^ 200 + 2 ^ 100 - 5)), (mk 3 (2 ^ 64 + 3)), q, r.
    split; [apply C28_every_integer_has_normal_form; reflexivity|].
    split; [apply C28_every_integer_has_normal_form; reflexivity|].
    split; [vm_compute; discriminate|]. split; [exact E|].
    vm_compute in E. injection E as <- <-. vm_compute. discriminate.
Qed.
Print Assumptions C22_div_exact_refuted.
(** (10^40+7) / (10^20+3): one digit of the quotient takes more than 100
    corrections, where a correct subtraction never needs more than 37. *)
Theorem C22_div_prompt_refuted : exists a b, normal a /\ normal b /\ value b <> 0 /\ div a b = DLoop.
Proof.
  exists (mk 5 (10 ^ 40 + 7)), (mk 3 (10 ^ 20 + 3)).
  split; [apply C28_every_integer_has_normal_form; reflexivity|].
  split; [apply C28_every_integer_has_normal_form; reflexivity|].
  split; [vm_compute; discriminate|]. vm_compute. reflexivity.
Qed.
Print Assumptions C22_div_prompt_refuted.

Example C22_witness : match div (mk 5 (- 10 ^ 40)) (mk 1 1000003) with
  | DRet q r => value q = - (10 ^ 40 / 1000003) /\ value r = - (10 ^ 40 mod 1000003) | _ => False end.
Proof. vm_compute. auto. Qed.

(** ** C23 *)

Theorem C23_bitwise_twos_complement : forall a b, normal a -> normal b ->
  value (bitwise_and a b) = Z.land (value a) (value b) /\
  value (bitwise_or a b) = Z.lor (value a) (value b) /\
  value (bitwise_xor a b) = Z.lxor (value a) (value b).
Proof.
  intros a b Na Nb. repeat split.
  - apply (bit_op_spec Z.land andb a b land_bitop Na Nb).
  - apply (bit_op_spec Z.lor orb a b lor_bitop Na Nb).
  - apply (bit_op_spec Z.lxor xorb a b lxor_bitop Na Nb).
Qed.
Print Assumptions C23_bitwise_twos_complement.

(** bit by bit *)
Theorem C23_bitwise_bits : forall a b k, normal a -> normal b -> 0 <= k ->
  Z.testbit (value (bitwise_and a b)) k = Z.testbit (value a) k && Z.testbit (value b) k /\
  Z.testbit (value (bitwise_or a b)) k = Z.testbit (value a) k || Z.testbit (value b) k /\
  Z.testbit (value (bitwise_xor a b)) k = xorb (Z.testbit (value a) k) (Z.testbit (value b) k).
Proof.
  intros a b k Na Nb Hk. destruct (C23_bitwise_twos_complement a b Na Nb) as (-> & -> & ->).
  rewrite Z.land_spec, Z.lor_spec, Z.lxor_spec. auto.
Qed.
Print Assumptions C23_bitwise_bits.

Example C23_witness :
  value (bitwise_and (mk 3 (-18446744073709551616)) (mk 3 55340232221128654851)) = 55340232221128654848 /\
  value (bitwise_or (mk 2 (-4294967296)) (mk 1 (-1))) = -1 /\
  value (bitwise_xor (mk 2 (-4294967296)) (mk 1 (-4294967295))) = 8589934591 - 4294967295 - 4294967295.
Proof. vm_compute. auto. Qed.

(** ** C24 *)

Theorem C24_shift_exact_iff : forall a b (right : bool), normal a -> normal b ->
  let n := if right then - value b else value b in
  Z.abs n < 4294967296 ->
  exists r, (if right then right_shift a b else left_shift a b) = ERet r /\ normal r /\
    (value r = shifted (value a) n <-> shift_ok (value a) (length (mag a)) n).
Proof.
  intros a b right Na Nb n Hn. destruct right; [apply (shift_spec a b true)|apply (shift_spec a b false)]; auto.
Qed.
Print Assumptions C24_shift_exact_iff.

Theorem C24_shift_nonnegative : forall a b, normal a -> normal b -> 0 <= value a -> 0 <= value b < 4294967296 ->
  (exists r, left_shift a b = ERet r /\ value r = value a * 2 ^ value b) /\
  (exists r, right_shift a b = ERet r /\ value r = value a / 2 ^ value b).
Proof.
  intros a b Na Nb Ha Hb. split.
  - destruct (shift_spec a b false Na Nb) as (r & E & _ & I); [rewrite B_val; lia|].
    exists r. split; auto. rewrite (proj2 I); [unfold shifted; rewrite (proj2 (Z.ltb_ge _ _)) by lia; reflexivity|].
    unfold shift_ok. rewrite (proj2 (Z.ltb_ge _ _)) by lia. right. left. auto.
  - destruct (shift_spec a b true Na Nb) as (r & E & _ & I); [rewrite B_val; lia|].
    exists r. split; auto. unfold shifted, shift_ok in I.
    destruct (Z.ltb_spec (- value b) 0).
    + rewrite Z.opp_involutive in I. apply I. left. auto.
    + replace (value b) with 0 in * by lia. rewrite Z.div_1_r. change (2 ^ - 0) with 1 in I. rewrite Z.mul_1_r in I.
      apply I. left. reflexivity.
Qed.
Print Assumptions C24_shift_nonnegative.

(** Distances of 2^32 and more: a right shift saturates correctly (for numbers
    of up to 2^32 bits), a left shift throws. *)
Theorem C24_shift_far : forall a b, normal a -> normal b -> 4294967296 <= value b ->
  left_shift a b = EThrow /\
  exists r, right_shift a b = ERet r /\
    (Z.of_nat (length (mag a)) <= 134217728 -> value r = value a / 2 ^ value b).
Proof.
  intros a b Na Nb Hb. split.
  - unfold left_shift. rewrite (shift_far a b false) by (auto; rewrite B_val; lia).
    rewrite (proj2 (Z.ltb_ge _ _)) by lia. reflexivity.
  - unfold right_shift. rewrite (shift_far a b true) by (auto; rewrite B_val; lia).
    rewrite (proj2 (Z.ltb_lt _ _)) by lia. eexists; split; [reflexivity|]. intros Hl.
    assert (S := shift_far_value (value a) (- value b) (length (mag a)) ltac:(rewrite B_val; lia) (mag_lt a Na) Hl).
    unfold shifted in S. rewrite (proj2 (Z.ltb_lt _ _)), Z.opp_involutive in S by lia. rewrite S.
    destruct (value a <? 0); reflexivity.
Qed.
Print Assumptions C24_shift_far.

Theorem C24_shift_right_refuted : exists a b r, normal a /\ normal b /\ 0 <= value b /\
  right_shift a b = ERet r /\ value r <> value a / 2 ^ value b.
Proof.
  exists (mk 2 (- 18446744069414584321)), (mk 1 32), (mk 1 (-1)).
  split; [apply C28_every_integer_has_normal_form; reflexivity|].
  split; [apply C28_every_integer_has_normal_form; reflexivity|]. vm_compute. repeat split; discriminate.
Qed.
Print Assumptions C24_shift_right_refuted.
(** -0xffffffffn << 1n *)
Theorem C24_shift_left_refuted : exists a b r, normal a /\ normal b /\ 0 <= value b /\
  left_shift a b = ERet r /\ value r <> value a * 2 ^ value b.
Proof.
  exists (mk 1 (- 4294967295)), (mk 1 1), (mk 1 (- 4294967294)).
  split; [apply C28_every_integer_has_normal_form; reflexivity|].
  split; [apply C28_every_integer_has_normal_form; reflexivity|]. vm_compute. repeat split; discriminate.
Qed.
Print Assumptions C24_shift_left_refuted.
(** 0n << 2n**32n throws *)
Theorem C24_shift_zero_refuted : exists a b, normal a /\ normal b /\ value a = 0 /\ 0 <= value b /\
  left_shift a b = EThrow.
Proof.
  exists (mk 1 0), (mk 2 4294967296).
  split; [apply C28_every_integer_has_normal_form; reflexivity|].
  split; [apply C28_every_integer_has_normal_form; reflexivity|]. vm_compute. repeat split; discriminate.
Qed.
Print Assumptions C24_shift_zero_refuted.

Example C24_witness :
  match right_shift (mk 3 (- 2 ^ 70)) (mk 1 37) with ERet r => value r = - 2 ^ 33 | _ => False end /\
  match left_shift (mk 1 (-5)) (mk 1 67) with ERet r => value r = -5 * 2 ^ 67 | _ => False end /\
  shift_ok (-5) 1 67 /\ shift_ok (- 2 ^ 70) 3 (-37).
Proof.
  split; [vm_compute; auto|]. split; [vm_compute; auto|]. split.
  - right. right. right. vm_compute. split; [reflexivity|discriminate].
  - right. right. vm_compute. discriminate.
Qed.

(** ** C25 *)

Theorem C25_as_uint_iff : forall bits b, normal b -> 0 <= bits ->
  normal (as_uint_n bits b) /\
  (value (as_uint_n bits b) = value b mod 2 ^ bits <-> window_ok (value b) bits (length (mag b))).
Proof. exact as_uint_spec. Qed.
Print Assumptions C25_as_uint_iff.

Theorem C25_as_int_iff : forall bits b, normal b -> 0 <= bits ->
  normal (as_int_n bits b) /\
  (value (as_int_n bits b) = (if bits =? 0 then 0 else to_signed bits (value b mod 2 ^ bits)) <->
   window_ok (value b) bits (length (mag b))).
Proof. exact as_int_spec. Qed.
Print Assumptions C25_as_int_iff.

(** what [to_signed] picks: the representative in [-2^(n-1), 2^(n-1)) *)
Theorem C25_signed_representative : forall bits x, 0 < bits ->
  - 2 ^ (bits - 1) <= to_signed bits (x mod 2 ^ bits) < 2 ^ (bits - 1) /\
  (to_signed bits (x mod 2 ^ bits)) mod 2 ^ bits = x mod 2 ^ bits.
Proof.
  intros bits x Hb. assert (P : 0 < 2 ^ bits) by (apply Z.pow_pos_nonneg; lia).
  pose proof (Z.mod_pos_bound x (2 ^ bits) P) as M. split; [apply to_signed_range; auto|].
  unfold to_signed. destruct (2 ^ (bits - 1) <=? x mod 2 ^ bits).
  - replace (x mod 2 ^ bits - 2 ^ bits) with (x mod 2 ^ bits + (-1) * 2 ^ bits) by ring.
    rewrite Z.mod_add by lia. apply Z.mod_mod. lia.
  - apply Z.mod_mod. lia.
Qed.
Print Assumptions C25_signed_representative.

(** BigInt.asUintN(64, -1n) is 0xffffffffn, BigInt.asIntN(64, -1n) too. *)
Theorem C25_as_uint_refuted : exists bits b, normal b /\ 0 <= bits /\
  value (as_uint_n bits b) <> value b mod 2 ^ bits.
Proof.
  exists 64, (mk 1 (-1)). split; [apply C28_every_integer_has_normal_form; reflexivity|].
  vm_compute. split; discriminate.
Qed.
Print Assumptions C25_as_uint_refuted.
Theorem C25_as_int_refuted : exists bits b, normal b /\ 0 < bits /\
  value (as_int_n bits b) <> to_signed bits (value b mod 2 ^ bits).
Proof.
  exists 64, (mk 1 (-1)). split; [apply C28_every_integer_has_normal_form; reflexivity|].
  vm_compute. split; [reflexivity|discriminate].
Qed.
Print Assumptions C25_as_int_refuted.

Example C25_witness : window_ok (-7) 8 1 /\ value (as_uint_n 8 (mk 1 (-7))) = 249 /\
  value (as_int_n 8 (mk 1 249)) = -7 /\ value (as_int_n 64 (mk 3 (- 2 ^ 70 - 3))) = -3.
Proof. split; [right; vm_compute; discriminate|]. vm_compute. auto. Qed.

(** ** C26 *)

Theorem C26_compare_order : forall a b, normal a -> normal b -> compare a b = cmpZ (value a) (value b).
Proof. exact compare_spec. Qed.
Print Assumptions C26_compare_order.

Theorem C26_same_value_equal : forall a b, normal a -> normal b ->
  (same_value a b = true <-> value a = value b).
Proof. exact same_value_spec. Qed.
Print Assumptions C26_same_value_equal.

(** against the Number [num / 2^k] (a finite double): exact, fraction included *)
Theorem C26_compare_number : forall b num k, normal b -> 0 <= k -> double_int (Z.quot num (2 ^ k)) ->
  compare_number b (NFin num k) = num_rel (value b) num k.
Proof. exact compare_number_spec. Qed.
Print Assumptions C26_compare_number.

Theorem C26_compare_special : forall b,
  compare_number b NNaN = CUndefined /\ compare_number b (NInf true) = CGreater /\
  compare_number b (NInf false) = CLess.
Proof. intros b. repeat split. Qed.
Print Assumptions C26_compare_special.

(** converting a Number loses nothing *)
Theorem C26_number_to_bigint_exact : forall i, double_int i ->
  normal (set_number i) /\ value (set_number i) = i.
Proof. exact set_number_spec. Qed.
Print Assumptions C26_number_to_bigint_exact.

Example C26_witness : double_int (Z.quot (9007199254740993 * 2 ^ 40 - 2 ^ 40) (2 ^ 2)) /\
  compare_number (mk 3 (2 ^ 90)) (NFin (2 ^ 91 - 2 ^ 39) 1) = CGreater /\
  compare_number (mk 1 (-3)) (NFin (-7) 1) = CGreater /\
  compare (mk 2 (- 2 ^ 40)) (mk 1 7) = CLess.
Proof.
  split; [exists 4503599627370496, 39; vm_compute; repeat split; discriminate|]. vm_compute. auto.
Qed.

(** ** C27 *)

(** The text is the canonical numeral of the value in the radix, digits 0-9a-z. *)
Theorem C27_to_string_canonical : forall b radix, normal b -> 2 <= radix <= 36 ->
  exists ds, to_string b radix = Some ((if value b <? 0 then [45] else []) ++ map digit_char ds) /\
    map char_digit (map digit_char ds) = map Some ds /\
    digits_ok ds radix /\ numeral ds radix = Z.abs (value b) /\
    ds <> [] /\ (hd 1 ds = 0 -> ds = [0]).
Proof.
  intros b radix N Hr. destruct (to_string_spec b radix N Hr) as (ds & E & D & V & Nn & C).
  exists ds. repeat split; auto. rewrite map_map. apply map_ext_in. intros d Hd.
  apply digit_char_inv. unfold digits_ok in D. rewrite Forall_forall in D. specialize (D d Hd). lia.
Qed.
Print Assumptions C27_to_string_canonical.

(** Reading the digits back (the scanner accepts radix 2 to 16) gives the same
    magnitude, in the same representation. *)
Theorem C27_text_round_trip : forall b radix, normal b -> 2 <= radix <= 16 ->
  exists cs ds, to_string b radix = Some ((if value b <? 0 then [45] else []) ++ cs) /\
    map hex_char cs = map Some ds /\
    from_digits ds radix = (if value b <? 0 then negate b else b).
Proof.
  intros b radix N Hr. destruct (to_string_spec b radix N ltac:(lia)) as (ds & E & D & V & Nn & C).
  exists (map digit_char ds), ds. split; auto. split.
  - rewrite map_map. apply map_ext_in. intros d Hd.
    apply hex_char_inv. unfold digits_ok in D. rewrite Forall_forall in D. specialize (D d Hd). lia.
  - destruct (from_digits_spec ds radix ltac:(lia) D) as (Nf & Vf). rewrite V in Vf.
    apply normal_inj; auto.
    + destruct (value b <? 0); auto. apply normal_negate; auto.
    + rewrite Vf. destruct (Z.ltb_spec (value b) 0); [rewrite value_negate by auto|]; lia.
Qed.
Print Assumptions C27_text_round_trip.

Theorem C27_parse_value : forall ds base, 2 <= base <= 36 -> digits_ok ds base ->
  normal (from_digits ds base) /\ value (from_digits ds base) = numeral ds base.
Proof. exact from_digits_spec. Qed.
Print Assumptions C27_parse_value.

Example C27_witness :
  to_string (mk 3 (- 2 ^ 70)) 10 = Some [45;49;49;56;48;53;57;49;54;50;48;55;49;55;52;49;49;51;48;51;52;50;52] /\
  to_string (mk 3 0) 10 = Some [48] /\
  to_string (mk 1 35) 36 = Some [122] /\ from_digits [1;0;0;0;0;0;0;0;0;15] 16 = mk 2 (2 ^ 36 + 15).
Proof. vm_compute. auto. Qed.

(** ** C28 *)

Theorem C28_operations_normal : forall a b, normal a -> normal b ->
  normal (big_add a b) /\ normal (big_subtract a b) /\ normal (mul a b) /\
  normal (unary_minus a) /\ normal (inc a) /\ normal (dec a) /\ normal (bitwise_not a) /\
  normal (bitwise_and a b) /\ normal (bitwise_or a b) /\ normal (bitwise_xor a b).
Proof.
  intros a b Na Nb. repeat split; try apply add_spec; try apply subtract_spec; try apply mul_spec;
    try apply minus_spec; try apply inc_spec; try apply dec_spec; try apply not_spec;
    try apply (bit_op_spec Z.land andb a b land_bitop Na Nb);
    try apply (bit_op_spec Z.lor orb a b lor_bitop Na Nb);
    try apply (bit_op_spec Z.lxor xorb a b lxor_bitop Na Nb); auto.
Qed.
Print Assumptions C28_operations_normal.

Theorem C28_division_normal : forall a b q r, normal a -> normal b -> div a b = DRet q r -> normal q /\ normal r.
Proof. exact div_normal. Qed.
Print Assumptions C28_division_normal.

Theorem C28_shift_power_normal : forall a b r, normal a -> normal b ->
  left_shift a b = ERet r \/ right_shift a b = ERet r \/ exponentiate a b = ERet r -> normal r.
Proof.
  intros a b r Na Nb [H|[H|H]].
  - unfold left_shift in H. destruct (Z.lt_ge_cases (Z.abs (value b)) B).
    + destruct (shift_spec a b false Na Nb H0) as (r' & E & N & _). congruence.
    + rewrite (shift_far a b false Na Nb H0) in H. destruct (value b <? 0); [|discriminate]. injection H as <-.
      destruct (value a <? 0); [apply normal_signed; [repeat constructor; lia|cbn; lia]|apply normal_bi0].
  - unfold right_shift in H. destruct (Z.lt_ge_cases (Z.abs (- value b)) B).
    + destruct (shift_spec a b true Na Nb H0) as (r' & E & N & _). congruence.
    + rewrite (shift_far a b true Na Nb H0) in H. destruct (- value b <? 0); [|discriminate]. injection H as <-.
      destruct (value a <? 0); [apply normal_signed; [repeat constructor; lia|cbn; lia]|apply normal_bi0].
  - destruct (exp_spec a b Na Nb) as (E1 & E2 & E3).
    destruct (Z.lt_ge_cases (value b) 0); [rewrite E1 in H by auto; discriminate|].
    destruct (Z.eq_dec (value a) 0).
    + destruct E3 as (r' & E & N & _); auto. congruence.
    + destruct (Z.lt_ge_cases (value b) 4294967296).
      * destruct E3 as (r' & E & N & _); auto. congruence.
      * rewrite E2 in H by auto. discriminate.
Qed.
Print Assumptions C28_shift_power_normal.

Theorem C28_conversions_normal : forall b bits i ds radix, normal b ->
  (0 <= bits -> normal (as_int_n bits b) /\ normal (as_uint_n bits b)) /\
  (double_int i -> normal (set_number i)) /\
  (0 <= i < 2 ^ 64 -> normal (from_uint64 i)) /\
  (- 2 ^ 63 < i < 2 ^ 63 -> exists x, from_int64 i = Some x /\ normal x) /\
  (2 <= radix <= 36 -> digits_ok ds radix -> normal (from_digits ds radix)).
Proof.
  intros b bits i ds radix N. repeat split; intros; try apply as_int_spec; try apply as_uint_spec;
    try apply set_number_spec; try apply from_uint64_spec; try apply from_digits_spec; auto.
  destruct (from_int64_spec i H) as (x & E & Nx & _). exists x. auto.
Qed.
Print Assumptions C28_conversions_normal.

(** One representation per integer. *)
Theorem C28_normal_unique : forall a b, normal a -> normal b -> value a = value b -> a = b.
Proof. exact normal_inj. Qed.
Print Assumptions C28_normal_unique.

Example C28_witness : big_subtract (mk 3 (2 ^ 64 + 7)) (mk 3 (2 ^ 64 + 7)) = bi0 /\
  normal (mk 3 (- 2 ^ 64)) /\ mul (mk 1 (-1)) bi0 = bi0.
Proof.
  split; [reflexivity|]. split; [apply C28_every_integer_has_normal_form; reflexivity|reflexivity].
Qed.

(** ** C49 *)

Theorem C49_from_int : forall i, - 2 ^ 31 < i < 2 ^ 31 -> normal (from_int i) /\ value (from_int i) = i.
Proof. exact from_int_spec. Qed.
Print Assumptions C49_from_int.

Theorem C49_int64_round_trip : forall i, - 2 ^ 63 < i < 2 ^ 63 ->
  exists b, from_int64 i = Some b /\ normal b /\ value b = i /\ to_int64 b = Some i.
Proof.
  intros i Hi. destruct (from_int64_spec i Hi) as (b & E & N & V). exists b. repeat split; auto; try apply N.
  rewrite to_int64_spec, V by auto.
  replace ((i <? 0) && (i mod 2 ^ 64 =? 2 ^ 63)) with false.
  - f_equal. unfold wrap64. rewrite Z.mod_small; lia.
  - symmetry. apply andb_false_iff. destruct (Z.ltb_spec i 0); [right|left; reflexivity].
    apply Z.eqb_neq. replace (i mod 2 ^ 64) with (i + 2 ^ 64); [lia|].
    apply (Z.mod_unique_pos _ _ (-1)); lia.
Qed.
Print Assumptions C49_int64_round_trip.

Theorem C49_uint64_round_trip : forall i, 0 <= i < 2 ^ 64 ->
  normal (from_uint64 i) /\ value (from_uint64 i) = i /\ to_uint64 (from_uint64 i) = Some i.
Proof.
  intros i Hi. destruct (from_uint64_spec i Hi) as (N & V). repeat split; auto; try apply N.
  rewrite to_uint64_spec, V by (auto; lia). rewrite Z.mod_small by lia. reflexivity.
Qed.
Print Assumptions C49_uint64_round_trip.

(** Both reduce modulo 2^64; the code is undefined exactly on the negative
    numbers congruent to 2^63. *)
Theorem C49_to_int64_iff : forall b, normal b ->
  to_int64 b = if (value b <? 0) && (value b mod 2 ^ 64 =? 2 ^ 63) then None
               else Some (wrap64 (value b)).
Proof. exact to_int64_spec. Qed.
Print Assumptions C49_to_int64_iff.

Theorem C49_wrap64_representative : forall z,
  - 2 ^ 63 <= wrap64 z < 2 ^ 63 /\ exists q, wrap64 z = z + q * 2 ^ 64.
Proof. exact wrap64_spec. Qed.
Print Assumptions C49_wrap64_representative.

(** new BigInt64Array([-(2n**63n)]): signed overflow both ways. *)
Theorem C49_int64_min_refuted :
  (exists b, normal b /\ value b = - 2 ^ 63 /\ to_int64 b = None /\ to_uint64 b = None) /\
  from_int64 (- 2 ^ 63) = None.
Proof.
  split; [|reflexivity]. exists (mk 2 (- 2 ^ 63)).
  split; [apply C28_every_integer_has_normal_form; reflexivity|]. vm_compute. auto.
Qed.
Print Assumptions C49_int64_min_refuted.

Example C49_witness : to_int64 (mk 3 (2 ^ 64 + 2 ^ 63)) = Some (- 2 ^ 63) /\
  to_uint64 (mk 1 (-1)) = Some (2 ^ 64 - 1).
Proof. vm_compute. auto. Qed.

(** ** C50 *)

(** Number(b) converts an int64_t to double; that integer is [b] itself exactly
    for -2^63 < b < 2^63, and then the result is a double nearest to [b]. *)
Theorem C50_number_of_bigint_iff : forall b, normal b ->
  (number_of_bigint b = Some (value b) <-> - 2 ^ 63 < value b < 2 ^ 63 ).
Proof.
  intros b N. unfold number_of_bigint. rewrite to_int64_spec by auto.
  destruct (wrap64_spec (value b)) as (R & q & Q).
  destruct ((value b <? 0) && (value b mod 2 ^ 64 =? 2 ^ 63)) eqn:E.
  - apply andb_true_iff in E. destruct E as (E1 & E2). apply Z.ltb_lt in E1. apply Z.eqb_eq in E2.
    split; [discriminate|]. intros H. exfalso.
    assert (value b mod 2 ^ 64 = value b + 2 ^ 64); [|lia].
    symmetry. apply (Z.mod_unique_pos _ _ (-1)); lia.
  - split.
    + intros H. assert (W : wrap64 (value b) = value b) by congruence.
      assert (value b <> - 2 ^ 63); [|lia]. intros H2. rewrite H2 in E. vm_compute in E. discriminate.
    + intros H. f_equal. unfold wrap64. rewrite Z.mod_small; lia.
Qed.
Print Assumptions C50_number_of_bigint_iff.

(** Number(2n**64n) is 0. *)
Theorem C50_number_of_bigint_refuted : exists b i, normal b /\ number_of_bigint b = Some i /\
  nearest_double i i /\ ~ nearest_double (value b) i.
Proof.
  exists (mk 3 (2 ^ 64)), 0. split; [apply C28_every_integer_has_normal_form; reflexivity|].
  split; [reflexivity|]. split.
  - split; [exists 0, 0; vm_compute; repeat split; discriminate|]. intros. change (Z.abs (0 - 0)) with 0. lia.
  - intros (_ & H). specialize (H (2 ^ 64)).
    assert (D : double_int (2 ^ 64)) by (exists 1, 64; vm_compute; repeat split; discriminate).
    specialize (H D). vm_compute in H. apply H. reflexivity.
Qed.
Print Assumptions C50_number_of_bigint_refuted.

Example C50_witness : number_of_bigint (mk 2 (- 2 ^ 62)) = Some (- 2 ^ 62).
Proof. reflexivity. Qed.
