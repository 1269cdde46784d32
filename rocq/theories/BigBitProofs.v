(** Two's complement operations of big integers. *)
From Coq Require Import ZArith List Bool Lia ZifyBool.
Import ListNotations.
From Verif Require Import BigModel BigSpec BigProofs BigSubProofs BigMulProofs.
Open Scope Z_scope.
Ltac Zify.zify_post_hook ::= Z.div_mod_to_equations.

(** The low [k] digits of an integer in two's complement. *)
Fixpoint digits (k : nat) (w : Z) : list Z :=
  match k with O => [] | S k' => (w mod B) :: digits k' (w / B) end.

Lemma digits_limbs k w : limbs (digits k w).
Proof.
  revert w. induction k as [|k IH]; intros w; cbn [digits]; constructor; [|apply IH].
  pose proof (Z.mod_pos_bound w B ltac:(reflexivity)). rewrite B_val in *. lia.
Qed.

Lemma digits_length k w : length (digits k w) = k.
Proof. revert w. induction k as [|k IH]; intros w; cbn [digits length]; auto. Qed.

Lemma digits_eval k w : eval (digits k w) = w mod Bp k.
Proof.
  revert w. induction k as [|k IH]; intros w; cbn [digits eval].
  - rewrite Bp_0, Z.mod_1_r. reflexivity.
  - rewrite IH. change 4294967296 with B.
    pose proof (Z.mod_pos_bound w B ltac:(reflexivity)) as M.
    rewrite <- mod_Bp_S by lia. f_equal. pose proof (Z.div_mod w B ltac:(discriminate)). lia.
Qed.

Lemma div_Bp_S w i : w / Bp i / B = w / Bp (S i).
Proof.
  rewrite Z.div_div; [|pose proof (Bp_pos i); lia|reflexivity].
  rewrite Bp_S, Z.mul_comm. reflexivity.
Qed.

Lemma eval_nth l i : limbs l -> (eval l / Bp i) mod B = nth i l 0.
Proof.
  intros L. revert i. induction L as [|x l H L IH]; intros i.
  - cbn [eval]. rewrite Z.div_0_l by (pose proof (Bp_pos i); lia). destruct i; reflexivity.
  - destruct i as [|i]; cbn [eval nth].
    + rewrite Bp_0, Z.div_1_r. rewrite B_val. lia.
    + rewrite <- IH. rewrite Bp_S. rewrite <- Z.div_div by (try apply Bp_pos; rewrite B_val; lia).
      f_equal. f_equal. change 4294967296 with B. rewrite B_val in *. lia.
Qed.

Lemma eval_div_zero l i : limbs l -> (length l <= i)%nat -> eval l / Bp i = 0.
Proof.
  intros L H. apply Z.div_small. pose proof (eval_bound l L) as Bd. split; [lia|].
  assert (B ^ Z.of_nat (length l) <= Bp i); [|lia].
  unfold Bp. change 4294967296 with B. apply Z.pow_le_mono_r; [reflexivity|lia].
Qed.

Lemma digits_id l : limbs l -> digits (length l) (eval l) = l.
Proof.
  intros L. apply eval_inj; auto; [apply digits_limbs|apply digits_length|].
  rewrite digits_eval. apply Z.mod_small. apply eval_bound in L. exact L.
Qed.

(** *** complement *)
Lemma inv_spec l : limbs l ->
  limbs (map (fun x => B - 1 - x) l) /\ eval (map (fun x => B - 1 - x) l) = Bp (length l) - 1 - eval l.
Proof.
  induction 1 as [|x l H L (F & E)]; cbn [map eval length].
  - split; [constructor|]. rewrite Bp_0. lia.
  - split; [constructor; auto; rewrite B_val; lia|]. rewrite E, Bp_S. rewrite B_val. lia.
Qed.

Lemma add_int_length l : forall left, limbs l -> 0 <= left < B -> eval l + left < Bp (length l) ->
  length (add_int l left) = length l.
Proof.
  induction l as [|x l IH]; intros left L Hl Hb; cbn [add_int eval length] in *.
  - rewrite Bp_0 in Hb. destruct (Z.eqb_spec left 0); [reflexivity|lia].
  - inversion L; subst. rewrite IH; auto.
    + rewrite B_val in *. lia.
    + rewrite Bp_S in Hb. rewrite B_val in *. lia.
Qed.

Lemma complement_raw_spec l : limbs l ->
  limbs (complement_raw l) /\ eval (complement_raw l) = Bp (length l) - eval l /\
  (0 < eval l -> length (complement_raw l) = length l).
Proof.
  intros L. destruct (inv_spec l L) as (F & E). unfold complement_raw.
  rewrite self_add_int_eq by (auto; lia).
  destruct (add_int_spec (map (fun x => B - 1 - x) l) 1 F ltac:(rewrite B_val; lia)) as (E1 & F1).
  split; auto. split; [lia|]. intros P.
  rewrite add_int_length; auto; [apply map_length|rewrite B_val; lia|]. rewrite map_length. lia.
Qed.

Lemma complement_spec l : limbs l ->
  limbs (complement l) /\ eval (complement l) = Bp (length l) - eval l /\ last (complement l) 1 <> 0.
Proof.
  intros L. destruct (complement_raw_spec l L) as (F & E & _). unfold complement.
  split; [apply limbs_strip; auto|]. split; [rewrite eval_strip; auto|].
  apply strip_last, strip_strip.
Qed.

(** Digit [j] of a normal number in infinite two's complement, as the code
    reads it. *)
Lemma mag_lt b : normal b -> Z.abs (value b) < Bp (length (mag b)).
Proof. intros N. rewrite <- value_abs by auto. apply eval_bound. apply N. Qed.

Lemma neg_div_Bp x j : - Bp j <= x < 0 -> x / Bp j = -1.
Proof.
  intros H. pose proof (Bp_pos j). symmetry. apply (Z.div_unique_pos x (Bp j) (-1) (x + Bp j)); lia.
Qed.

Lemma Bp_le i j : (i <= j)%nat -> Bp i <= Bp j.
Proof. intros H. unfold Bp. apply Z.pow_le_mono_r; lia. Qed.

Lemma Bp_add i j : Bp (i + j) = Bp i * Bp j.
Proof. unfold Bp. rewrite Nat2Z.inj_add, Z.pow_add_r by lia. reflexivity. Qed.

Lemma comp_digit b j : normal b -> value b < 0 -> (j < length (mag b))%nat ->
  nth j (complement (mag b)) 0 = (value b / Bp j) mod B.
Proof.
  intros N Hn Hj. assert (V := value_abs b N). rewrite Z.abs_neq in V by lia.
  destruct (complement_spec (mag b) (proj1 N)) as (F & E & _).
  rewrite <- (eval_nth _ j F), E, V.
  replace (length (mag b)) with (S j + (length (mag b) - S j))%nat by lia.
  rewrite Bp_add, Bp_S. set (p := Bp (length (mag b) - S j)).
  replace (B * Bp j * p - - value b) with (value b + B * p * Bp j) by ring.
  rewrite Z.div_add by (pose proof (Bp_pos j); lia).
  replace (value b / Bp j + B * p) with (value b / Bp j + p * B) by ring.
  apply Z.mod_add. discriminate.
Qed.

Lemma fill_digit b j : normal b -> value b < 0 -> (length (mag b) <= j)%nat ->
  (value b / Bp j) mod B = B - 1.
Proof.
  intros N Hn Hj. pose proof (mag_lt b N) as Bd. pose proof (Bp_le _ _ Hj).
  rewrite neg_div_Bp by lia. reflexivity.
Qed.

Lemma pos_digit b j : normal b -> 0 <= value b -> nth j (mag b) 0 = (value b / Bp j) mod B.
Proof.
  intros N Hn. assert (V := value_abs b N). rewrite Z.abs_eq in V by lia.
  rewrite <- V, eval_nth by apply N. reflexivity.
Qed.

Lemma pos_fill b j : normal b -> 0 <= value b -> (length (mag b) <= j)%nat -> value b / Bp j = 0.
Proof.
  intros N Hn Hj. assert (V := value_abs b N). rewrite Z.abs_eq in V by lia.
  rewrite <- V. apply eval_div_zero; auto. apply N.
Qed.

(** *** bitwise operations *)
Lemma set_item_nth l idx v i : nth i (set_item l idx v) 0 = if Nat.eqb i idx then v else nth i l 0.
Proof.
  revert l i. induction idx as [|idx IH]; intros l i.
  - destruct l; destruct i; cbn [set_item nth Nat.eqb]; auto. destruct i; reflexivity.
  - destruct l as [|x l]; destruct i as [|i]; cbn [set_item nth Nat.eqb]; auto.
    + rewrite IH. destruct (Nat.eqb i idx); auto. destruct i; reflexivity.
Qed.

Definition tlist (b : bi) : list Z :=
  if positive b <? 0 then set_item (complement (mag b)) (length (mag b)) (B - 1)
  else set_item (mag b) (length (mag b)) 0.

Lemma tlist_digit b i : normal b ->
  (if (i <? S (length (mag b)))%nat then nth i (tlist b) 0
   else if positive b <? 0 then B - 1 else 0) = (value b / Bp i) mod B.
Proof.
  intros N. unfold tlist. rewrite neg_pos by auto.
  destruct (Z.ltb_spec (value b) 0) as [Hn|Hn].
  - destruct (Nat.ltb_spec i (S (length (mag b)))) as [Hi|Hi].
    + rewrite set_item_nth. destruct (Nat.eqb_spec i (length (mag b))) as [->|Hd].
      * symmetry. apply fill_digit; auto.
      * apply comp_digit; auto. lia.
    + symmetry. apply fill_digit; auto. lia.
  - destruct (Nat.ltb_spec i (S (length (mag b)))) as [Hi|Hi].
    + rewrite set_item_nth. destruct (Nat.eqb_spec i (length (mag b))) as [->|Hd].
      * rewrite pos_fill by auto. reflexivity.
      * apply pos_digit; auto.
    + rewrite pos_fill by (auto; lia). reflexivity.
Qed.


Lemma Bp_pow2 i : Bp i = 2 ^ (32 * Z.of_nat i).
Proof. unfold Bp. change 4294967296 with (2 ^ 32). rewrite <- Z.pow_mul_r by lia. reflexivity. Qed.

Lemma op_div op f a b i : is_bitop op f -> op (a / Bp i) (b / Bp i) = op a b / Bp i.
Proof.
  intros (F0 & H). rewrite !Bp_pow2, <- !Z.shiftr_div_pow2 by lia.
  apply Z.bits_inj'. intros k Hk. rewrite H by lia. rewrite !Z.shiftr_spec by lia. rewrite H by lia. reflexivity.
Qed.

Lemma op_mod op f a b : is_bitop op f -> op (a mod B) (b mod B) = op a b mod B.
Proof.
  intros (F0 & H). change B with (2 ^ 32). apply Z.bits_inj'. intros k Hk. rewrite H by lia.
  destruct (Z.lt_ge_cases k 32) as [L|L].
  - rewrite !Z.mod_pow2_bits_low by lia. rewrite H by lia. reflexivity.
  - rewrite !Z.mod_pow2_bits_high by lia. exact F0.
Qed.

Lemma bit_loop_digits op f b1 b2 : is_bitop op f -> normal b1 -> normal b2 ->
  forall k i, bit_loop op k i (S (length (mag b1))) (S (length (mag b2))) (tlist b1) (tlist b2)
     (if positive b1 <? 0 then B - 1 else 0) (if positive b2 <? 0 then B - 1 else 0)
   = digits k (op (value b1) (value b2) / Bp i).
Proof.
  intros Ho N1 N2. induction k as [|k IH]; intros i; cbn [bit_loop digits]; [reflexivity|].
  rewrite !tlist_digit by auto. rewrite (op_mod op f _ _ Ho), (op_div op f _ _ i Ho).
  rewrite IH, div_Bp_S. reflexivity.
Qed.

Lemma op_range op f a b n : is_bitop op f -> - Bp n <= a < Bp n -> - Bp n <= b < Bp n ->
  op a b / Bp n = 0 \/ op a b / Bp n = -1.
Proof.
  intros Ho Ha Hb. rewrite <- (op_div op f _ _ n Ho).
  assert (Q : forall x, - Bp n <= x < Bp n -> x / Bp n = 0 \/ x / Bp n = -1).
  { intros x Hx. destruct (Z.lt_ge_cases x 0).
    - right. apply neg_div_Bp. lia.
    - left. apply Z.div_small. lia. }
  assert (K : forall x y, (x = 0 \/ x = -1) -> (y = 0 \/ y = -1) -> op x y = 0 \/ op x y = -1).
  { intros x y Hx Hy. destruct Ho as (F0 & H).
    assert (G : forall r : bool, (forall k, 0 <= k -> Z.testbit (op x y) k = r) -> op x y = if r then -1 else 0).
    { intros r Hr. apply Z.bits_inj'. intros k Hk. rewrite Hr by auto.
      destruct r; [rewrite Z.bits_m1 by auto|rewrite Z.bits_0]; reflexivity. }
    assert (T : forall z k, 0 <= k -> (z = 0 \/ z = -1) -> Z.testbit z k = (z =? -1)).
    { intros z k Hk [->| ->]; [rewrite Z.bits_0|rewrite Z.bits_m1 by auto]; reflexivity. }
    rewrite (G (f (x =? -1) (y =? -1))).
    - destruct (f (x =? -1) (y =? -1)); auto.
    - intros k Hk. rewrite H by auto. rewrite (T x k), (T y k) by auto. reflexivity. }
  apply K; apply Q; auto.
Qed.

Lemma digits_last_nz k w : last (digits (S k) w) 1 = (w / Bp k) mod B.
Proof.
  revert w. induction k as [|k IH]; intros w.
  - rewrite Bp_0, Z.div_1_r. reflexivity.
  - change (digits (S (S k)) w) with (w mod B :: digits (S k) (w / B)).
    rewrite last_cons_nn by (cbn [digits]; discriminate). rewrite IH.
    rewrite Z.div_div by (try apply Bp_pos; discriminate). rewrite Bp_S. reflexivity.
Qed.

Ltac Zify.zify_post_hook ::= idtac.
Theorem bit_op_spec op f b1 b2 : is_bitop op f -> normal b1 -> normal b2 ->
  normal (bit_op op b1 b2) /\ value (bit_op op b1 b2) = op (value b1) (value b2).
Proof.
  intros Ho N1 N2. unfold bit_op. fold (tlist b1). fold (tlist b2).
  rewrite (bit_loop_digits op f b1 b2 Ho N1 N2). rewrite Bp_0, Z.div_1_r.
  set (W := op (value b1) (value b2)).
  pose proof (mag_lt b1 N1) as M1. pose proof (mag_lt b2 N2) as M2.
  set (n := Nat.max (length (mag b1)) (length (mag b2))).
  replace (Nat.max (S (length (mag b1))) (S (length (mag b2)))) with (S n) by lia.
  pose proof (Bp_le (length (mag b1)) n ltac:(lia)). pose proof (Bp_le (length (mag b2)) n ltac:(lia)).
  destruct (op_range op f (value b1) (value b2) n Ho) as [R|R]; [lia|lia| |]; fold W in R.
  - assert (Wr : 0 <= W < Bp n).
    { pose proof (Bp_pos n). pose proof (Z.div_mod W (Bp n) ltac:(lia)). pose proof (Z.mod_pos_bound W (Bp n)). lia. }
    replace (S n - 1)%nat with n by lia.
    rewrite <- (eval_nth (digits (S n) W) n) by apply digits_limbs. rewrite digits_eval.
    rewrite (Z.mod_small W (Bp (S n))) by (pose proof (Bp_le n (S n)); lia).
    rewrite R. change (0 mod B) with 0. cbn [Z.leb Z.compare].
    split; [apply normal_strip, digits_limbs|].
    rewrite value_signed, eval_strip, digits_eval. apply Z.mod_small.
    pose proof (Bp_le n (S n)). lia.
  - assert (Wr : - Bp n <= W < 0).
    { pose proof (Bp_pos n). pose proof (Z.div_mod W (Bp n) ltac:(lia)). pose proof (Z.mod_pos_bound W (Bp n)). lia. }
    assert (Wm : W mod Bp (S n) = W + Bp (S n)).
    { symmetry. pose proof (Bp_le n (S n)). apply (Z.mod_unique_pos _ _ (-1)); lia. }
    assert (St : strip (digits (S n) W) = digits (S n) W).
    { apply strip_last. rewrite digits_last_nz, R. discriminate. }
    assert (T : nth (S n - 1) (digits (S n) W) 0 = B - 1).
    { replace (S n - 1)%nat with n by lia.
      rewrite <- (eval_nth (digits (S n) W) n) by apply digits_limbs. rewrite digits_eval, Wm, Bp_S.
      rewrite Z.div_add by (pose proof (Bp_pos n); lia). rewrite R. reflexivity. }
    rewrite T. change (2147483648 <=? B - 1) with true. cbv iota. rewrite St.
    destruct (complement_spec (digits (S n) W) (digits_limbs _ _)) as (F & E & La).
    split; [apply normal_signed; auto|]. rewrite value_signed, E, digits_eval, digits_length, Wm. lia.
Qed.
Ltac Zify.zify_post_hook ::= Z.div_mod_to_equations.

Lemma land_bitop : is_bitop Z.land andb.
Proof. split; [reflexivity|]. intros. apply Z.land_spec. Qed.
Lemma lor_bitop : is_bitop Z.lor orb.
Proof. split; [reflexivity|]. intros. apply Z.lor_spec. Qed.
Lemma lxor_bitop : is_bitop Z.lxor xorb.
Proof. split; [reflexivity|]. intros. apply Z.lxor_spec. Qed.

(** *** bits, asIntN, asUintN *)
Lemma bits_loop_digits inp k i : limbs inp -> bits_loop k i inp = digits k (eval inp / Bp i).
Proof.
  intros L. revert i. induction k as [|k IH]; intros i; cbn [bits_loop digits]; [reflexivity|].
  rewrite IH, div_Bp_S, eval_nth by auto. f_equal.
  destruct (Nat.ltb_spec i (length inp)); [reflexivity|].
  rewrite nth_overflow by lia. reflexivity.
Qed.

Definition tc_input (b : bi) : list Z := if positive b <? 0 then complement (mag b) else mag b.

Lemma tc_input_spec b : normal b ->
  limbs (tc_input b) /\
  eval (tc_input b) = if value b <? 0 then Bp (length (mag b)) + value b else value b.
Proof.
  intros N. unfold tc_input. rewrite neg_pos by auto. assert (V := value_abs b N).
  destruct (Z.ltb_spec (value b) 0).
  - destruct (complement_spec (mag b) (proj1 N)) as (F & E & _). split; auto. lia.
  - split; [apply N|]. lia.
Qed.

Ltac Zify.zify_post_hook ::= idtac.
Lemma bits_of_spec b bits : normal b -> 0 <= bits ->
  limbs (bits_of b bits) /\ last (bits_of b bits) 1 <> 0 /\
  eval (bits_of b bits) = eval (tc_input b) mod 2 ^ bits.
Proof.
  intros N Hb. unfold bits_of. fold (tc_input b). destruct (tc_input_spec b N) as (L & _).
  rewrite bits_loop_digits by auto. rewrite Bp_0, Z.div_1_r.
  set (off := Z.to_nat (bits / 32)). set (V := eval (tc_input b)).
  replace (if (off <? length (tc_input b))%nat then nth off (tc_input b) 0 else 0)
    with ((V / Bp off) mod B).
  2:{ unfold V. rewrite eval_nth by auto. destruct (Nat.ltb_spec off (length (tc_input b))); [reflexivity|].
      rewrite nth_overflow by lia. reflexivity. }
  assert (Hoff : Z.of_nat off = bits / 32) by (unfold off; apply Z2Nat.id, Z.div_pos; lia).
  assert (Hmod : 0 <= bits mod 32 < 32) by (apply Z.mod_pos_bound; lia).
  assert (Hdm : bits = 32 * (bits / 32) + bits mod 32) by (apply Z.div_mod; lia).
  assert (P : 2 ^ bits = Bp off * 2 ^ (bits mod 32)).
  { rewrite Bp_pow2, <- Z.pow_add_r by lia. f_equal. lia. }
  assert (Pm : 0 < 2 ^ (bits mod 32) <= 2 ^ 31).
  { split; [apply Z.pow_pos_nonneg; lia|]. apply Z.pow_le_mono_r; lia. }
  assert (Q : (V / Bp off) mod B mod 2 ^ (bits mod 32) = (V / Bp off) mod 2 ^ (bits mod 32)).
  { assert (Dv : B = 2 ^ (bits mod 32) * 2 ^ (32 - bits mod 32)).
    { rewrite <- Z.pow_add_r by lia.
      replace (bits mod 32 + (32 - bits mod 32)) with 32 by lia. reflexivity. }
    assert (Pc : 0 < 2 ^ (32 - bits mod 32)) by (apply Z.pow_pos_nonneg; lia).
    rewrite Dv at 1. rewrite Z.rem_mul_r by lia.
    rewrite (Z.mul_comm (2 ^ (bits mod 32)) (_ mod _)), Z.mod_add by lia. apply Z.mod_mod. lia. }
  destruct (Z.eqb_spec (bits mod 32) 0) as [E0|E0].
  - rewrite app_nil_r. split; [apply limbs_strip, digits_limbs|].
    split; [apply strip_last, strip_strip|].
    rewrite eval_strip, digits_eval, P, E0. f_equal. lia.
  - rewrite Q.
    assert (Lm : limbs (digits off V ++ [(V / Bp off) mod 2 ^ (bits mod 32)])).
    { apply limbs_app; [apply digits_limbs|]. constructor; [|constructor].
      pose proof (Z.mod_pos_bound (V / Bp off) (2 ^ (bits mod 32)) ltac:(lia)).
      change (2 ^ 31) with 2147483648 in Pm. lia. }
    split; [apply limbs_strip; auto|]. split; [apply strip_last, strip_strip|].
    rewrite eval_strip, eval_app, digits_eval, digits_length. cbn [eval].
    rewrite P, Z.rem_mul_r; [|pose proof (Bp_pos off); lia|lia].
    change (B ^ Z.of_nat off) with (Bp off). lia.
Qed.
Ltac Zify.zify_post_hook ::= Z.div_mod_to_equations.


Lemma window_mod b bits : normal b -> 0 <= bits -> window_ok (value b) bits (length (mag b)) ->
  eval (tc_input b) mod 2 ^ bits = value b mod 2 ^ bits.
Proof.
  intros N Hb W. destruct (tc_input_spec b N) as (_ & E). rewrite E. unfold window_ok in W.
  destruct (Z.ltb_spec (value b) 0) as [H|H]; [|reflexivity].
  rewrite Bp_pow2. set (s := 32 * Z.of_nat (length (mag b))) in *.
  replace s with ((s - bits) + bits) by lia. rewrite Z.pow_add_r by lia.
  rewrite Z.add_comm. apply Z.mod_add. apply Z.pow_nonzero; lia.
Qed.

Lemma window_bad b bits : normal b -> 0 <= bits -> ~ window_ok (value b) bits (length (mag b)) ->
  eval (tc_input b) mod 2 ^ bits = value b + Bp (length (mag b)) /\
  value b mod 2 ^ bits = value b + 2 ^ bits /\ Bp (length (mag b)) < 2 ^ bits /\
  Bp (length (mag b)) * 2 <= 2 ^ bits /\ value b < 0.
Proof.
  intros N Hb W. destruct (tc_input_spec b N) as (_ & E). rewrite E. unfold window_ok in W.
  pose proof (mag_lt b N) as M.
  destruct (Z.ltb_spec (value b) 0) as [H|H]; [|lia].
  assert (P : Bp (length (mag b)) * 2 <= 2 ^ bits).
  { rewrite Bp_pow2. change 2 with (2 ^ 1) at 2. rewrite <- Z.pow_add_r by lia.
    apply Z.pow_le_mono_r; lia. }
  pose proof (Bp_pos (length (mag b))).
  repeat split; try lia.
  - rewrite Z.mod_small by lia. lia.
  - symmetry. apply (Z.mod_unique_pos _ _ (-1)); lia.
Qed.

Theorem as_uint_spec bits b : normal b -> 0 <= bits ->
  normal (as_uint_n bits b) /\
  (value (as_uint_n bits b) = value b mod 2 ^ bits <-> window_ok (value b) bits (length (mag b))).
Proof.
  intros N Hb. unfold as_uint_n. destruct (bits_of_spec b bits N Hb) as (L & A & E).
  split; [apply normal_signed; auto|]. rewrite value_signed, E.
  assert (D : window_ok (value b) bits (length (mag b)) \/ ~ window_ok (value b) bits (length (mag b)))
    by (unfold window_ok; lia).
  destruct D as [W|W].
  - split; auto. intros _. apply window_mod; auto.
  - split; [|tauto]. intros E'. destruct (window_bad b bits N Hb W). lia.
Qed.


Lemma set_item_limbs l idx v : limbs l -> 0 <= v < B -> limbs (set_item l idx v).
Proof.
  revert l. induction idx as [|idx IH]; intros l L Hv.
  - destruct L; cbn [set_item]; constructor; auto; rewrite B_val in *; try lia; constructor.
  - destruct L; cbn [set_item]; constructor; auto; try lia; apply IH; auto; constructor.
Qed.

Lemma set_item_last l idx v : length l = S idx -> limbs l ->
  eval (set_item l idx v) = eval l - Bp idx * nth idx l 0 + Bp idx * v /\ length (set_item l idx v) = S idx.
Proof.
  revert l. induction idx as [|idx IH]; intros l Hl L.
  - destruct l as [|x [|y t]]; cbn [length] in Hl; try lia. cbn [set_item eval nth length]. rewrite Bp_0. lia.
  - destruct l as [|x t]; cbn [length] in Hl; [lia|]. inversion L; subst. cbn [set_item eval nth length].
    destruct (IH t ltac:(lia) H2) as (E & G). rewrite E, Bp_S. split; [|lia]. change 4294967296 with B. ring.
Qed.

Ltac Zify.zify_post_hook ::= idtac.
Theorem as_int_window bits b : normal b -> 0 < bits ->
  normal (as_int_n bits b) /\
  value (as_int_n bits b) = to_signed bits (eval (tc_input b) mod 2 ^ bits).
Proof.
  intros N Hb. unfold as_int_n. destruct (bits_of_spec b bits N ltac:(lia)) as (L & A & E).
  set (res := bits_of b bits) in *. set (x := eval (tc_input b) mod 2 ^ bits) in *.
  rewrite Z.quot_div_nonneg, Z.rem_mod_nonneg by lia.
  set (off := Z.to_nat ((bits - 1) / 32)). set (bb := (bits - 1) mod 32).
  assert (Hbb : 0 <= bb < 32) by (apply Z.mod_pos_bound; lia).
  assert (Hoff : Z.of_nat off = (bits - 1) / 32) by (unfold off; apply Z2Nat.id, Z.div_pos; lia).
  assert (Hp : 2 ^ (bits - 1) = Bp off * 2 ^ bb).
  { rewrite Bp_pow2, <- Z.pow_add_r by lia. f_equal. unfold bb. rewrite Hoff. apply Z.div_mod. lia. }
  assert (H2 : 2 ^ bits = 2 * 2 ^ (bits - 1)).
  { rewrite <- Z.pow_succ_r by lia. f_equal. lia. }
  assert (Hx : 0 <= x < 2 ^ bits) by (apply Z.mod_pos_bound, Z.pow_pos_nonneg; lia).
  assert (Pb : 0 < 2 ^ bb) by (apply Z.pow_pos_nonneg; lia).
  assert (Hdig : nth off res 0 = x / Bp off).
  { rewrite <- (eval_nth res off L), E. apply Z.mod_small. pose proof (Bp_pos off).
    split; [apply Z.div_pos; lia|]. apply Z.div_lt_upper_bound; [lia|].
    assert (2 * 2 ^ bb <= B).
    { rewrite <- Z.pow_succ_r by lia. change B with (2 ^ 32). apply Z.pow_le_mono_r; lia. }
    nia. }
  assert (Htop : x / Bp off < 2 * 2 ^ bb).
  { apply Z.div_lt_upper_bound; [apply Bp_pos|]. lia. }
  assert (Hbit : Z.testbit (nth off res 0) bb = (2 ^ (bits - 1) <=? x)).
  { rewrite Hdig. rewrite Z.testbit_eqb by lia.
    assert (D1 : x / Bp off / 2 ^ bb = x / 2 ^ (bits - 1)).
    { rewrite Z.div_div by (try apply Bp_pos; pose proof (Bp_pos off); lia). rewrite Hp. reflexivity. }
    rewrite D1.
    assert (Q2 : 0 < 2 ^ (bits - 1)) by (apply Z.pow_pos_nonneg; lia).
    destruct (Z.leb_spec (2 ^ (bits - 1)) x).
    - replace (x / 2 ^ (bits - 1)) with 1; [reflexivity|]. apply (Z.div_unique_pos x _ 1 (x - 2 ^ (bits - 1))); lia.
    - rewrite Z.div_small by lia. reflexivity. }
  rewrite Hbit. unfold to_signed.
  destruct (Z.leb_spec (2 ^ (bits - 1)) x) as [C|C].
  - (* negative *)
    assert (Hlen : length res = S off).
    { assert (off < length res)%nat.
      { destruct (Nat.lt_ge_cases off (length res)); auto. exfalso.
        rewrite nth_overflow in Hbit by lia. rewrite Z.testbit_0_l in Hbit.
        destruct (Z.leb_spec (2 ^ (bits - 1)) x); [discriminate|lia]. }
      destruct (Nat.eq_dec (length res) (S off)); auto. exfalso.
      assert (Nn : res <> []) by (intros En; rewrite En in H; cbn in H; lia).
      pose proof (nrm_low res L Nn A) as Lo. rewrite E in Lo.
      assert (Bp (S off) <= B ^ (Z.of_nat (length res) - 1)).
      { unfold Bp. change 4294967296 with B. apply Z.pow_le_mono_r; [reflexivity|lia]. }
      assert (2 ^ bits <= Bp (S off)).
      { rewrite Bp_S, H2, Hp. assert (2 * 2 ^ bb <= B).
        { rewrite <- Z.pow_succ_r by lia. change B with (2 ^ 32). apply Z.pow_le_mono_r; lia. }
        pose proof (Bp_pos off). nia. }
      lia. }
    rewrite (proj2 (Nat.ltb_lt off (length res))) by lia. cbn [andb].
    set (n := nth off res 0) in *.
    (* n | (0xffffffff << b) *)
    assert (Hn : 2 ^ bb <= n < 2 * 2 ^ bb).
    { rewrite Hdig. split; [|lia]. apply Z.div_le_lower_bound; [apply Bp_pos|]. lia. }
    assert (Hm : (B - 1) * 2 ^ bb mod B = B - 2 ^ bb).
    { symmetry. assert (2 ^ bb <= 2 ^ 31) by (apply Z.pow_le_mono_r; lia). change (2 ^ 31) with 2147483648 in *.
      apply (Z.mod_unique_pos _ _ (2 ^ bb - 1)); [rewrite B_val; lia|]. ring. }
    assert (Hor : Z.lor n ((B - 1) * 2 ^ bb mod B) = B - 2 * 2 ^ bb + n).
    { rewrite Hm.
      assert (K : B - 2 ^ bb = 2 ^ bb * Z.ones (32 - bb)).
      { rewrite Z.ones_equiv. unfold Z.pred. rewrite Z.mul_add_distr_l, <- Z.pow_add_r by lia.
        replace (bb + (32 - bb)) with 32 by lia. change (2 ^ 32) with B. lia. }
      assert (Nd : n = 2 ^ bb * 1 + (n - 2 ^ bb)) by lia.
      (* split n into its top bit and the rest *)
      assert (Ln : Z.lor n (B - 2 ^ bb) = (n - 2 ^ bb) + (B - 2 ^ bb)).
      { rewrite K. set (r := n - 2 ^ bb).
        assert (Hr : 0 <= r < 2 ^ bb) by (unfold r; lia).
        assert (Er : r + 2 ^ bb * Z.ones (32 - bb) = Z.lor r (2 ^ bb * Z.ones (32 - bb))).
        { rewrite <- Z.lxor_lor. 2:{ 
            rewrite Z.mul_comm, <- Z.shiftl_mul_pow2 by lia. apply Z.bits_inj'. intros k Hk.
            rewrite Z.land_spec, Z.bits_0. destruct (Z.lt_ge_cases k bb).
            - rewrite Z.shiftl_spec_low by lia. apply andb_false_r.
            - replace (Z.testbit r k) with false; [reflexivity|]. symmetry.
              destruct (Z.eq_dec r 0) as [->|]; [apply Z.bits_0|].
              apply Z.bits_above_log2; [lia|]. apply Z.log2_lt_pow2; [lia|].
              assert (2 ^ bb <= 2 ^ k) by (apply Z.pow_le_mono_r; lia). lia. }
          rewrite Z.add_nocarry_lxor; [reflexivity|].
          rewrite Z.mul_comm, <- Z.shiftl_mul_pow2 by lia. apply Z.bits_inj'. intros k Hk.
          rewrite Z.land_spec, Z.bits_0. destruct (Z.lt_ge_cases k bb).
          - rewrite Z.shiftl_spec_low by lia. apply andb_false_r.
          - replace (Z.testbit r k) with false; [reflexivity|]. symmetry.
            destruct (Z.eq_dec r 0) as [->|]; [apply Z.bits_0|].
            apply Z.bits_above_log2; [lia|]. apply Z.log2_lt_pow2; [lia|].
            assert (2 ^ bb <= 2 ^ k) by (apply Z.pow_le_mono_r; lia). lia. }
        rewrite Er.
        assert (En : n = Z.lor r (2 ^ bb)).
        { replace n with (r + 2 ^ bb) by (unfold r; lia).
          assert (Z.land r (2 ^ bb) = 0).
          { apply Z.bits_inj'. intros k Hk. rewrite Z.land_spec, Z.bits_0, Z.pow2_bits_eqb by lia.
            destruct (Z.eqb_spec bb k) as [->|]; [|apply andb_false_r].
            replace (Z.testbit r k) with false; [reflexivity|]. symmetry.
            destruct (Z.eq_dec r 0) as [->|]; [apply Z.bits_0|].
            apply Z.bits_above_log2; [lia|]. apply Z.log2_lt_pow2; lia. }
          rewrite Z.add_nocarry_lxor, Z.lxor_lor; auto. }
        rewrite En at 1. rewrite <- Z.lor_assoc. f_equal.
        replace (Z.ones (32 - bb)) with (Z.lor 1 (Z.ones (32 - bb))).
        - rewrite !(Z.mul_comm (2 ^ bb)), <- !Z.shiftl_mul_pow2 by lia. rewrite Z.shiftl_lor.
          rewrite Z.shiftl_1_l, Z.lor_assoc, Z.lor_diag. reflexivity.
        - apply Z.bits_inj'. intros k Hk. rewrite Z.lor_spec.
          rewrite (Z.testbit_ones_nonneg (32 - bb) k) by lia.
          change 1 with (2 ^ 0). rewrite Z.pow2_bits_eqb by lia.
          destruct (Z.eqb_spec 0 k); destruct (Z.ltb_spec k (32 - bb)); try reflexivity. lia. }
      lia. }
    rewrite Hor.
    assert (Hr : 0 <= B - 2 * 2 ^ bb + n < B).
    { assert (2 * 2 ^ bb <= B).
      { rewrite <- Z.pow_succ_r by lia. change B with (2 ^ 32). apply Z.pow_le_mono_r; lia. }
      lia. }
    destruct (set_item_last res off (B - 2 * 2 ^ bb + n) Hlen L) as (Ev & Ll).
    destruct (complement_spec _ (set_item_limbs res off _ L Hr)) as (F & Ec & La).
    split; [apply normal_signed; auto|].
    rewrite value_signed, Ec, Ev, Ll, E. fold n. rewrite Bp_S, H2, Hp. ring.
  - rewrite andb_false_r. split; [apply normal_signed; auto|]. rewrite value_signed. exact E.
Qed.
Ltac Zify.zify_post_hook ::= Z.div_mod_to_equations.

(** asIntN of 0 bits *)
Lemma as_int_0 b : normal b -> as_int_n 0 b = bi0.
Proof.
  intros N. unfold as_int_n. destruct (bits_of_spec b 0 N ltac:(lia)) as (L & A & E).
  change (2 ^ 0) with 1 in E. rewrite Z.mod_1_r in E.
  rewrite (eval_zero _ L A E). cbn. reflexivity.
Qed.

Theorem as_int_spec bits b : normal b -> 0 <= bits ->
  normal (as_int_n bits b) /\
  (value (as_int_n bits b) = (if bits =? 0 then 0 else to_signed bits (value b mod 2 ^ bits)) <->
   window_ok (value b) bits (length (mag b))).
Proof.
  intros N Hb. destruct (Z.eqb_spec bits 0) as [->|Nz].
  - rewrite as_int_0 by auto. split; [apply normal_bi0|]. unfold window_ok. split; [lia|reflexivity].
  - destruct (as_int_window bits b N ltac:(lia)) as (Nn & V). split; auto. rewrite V.
    assert (D : window_ok (value b) bits (length (mag b)) \/ ~ window_ok (value b) bits (length (mag b)))
      by (unfold window_ok; lia).
    destruct D as [W|W].
    + rewrite window_mod by (auto; lia). tauto.
    + split; [|tauto]. intros E. exfalso.
      destruct (window_bad b bits N ltac:(lia) W) as (E1 & E2 & E3 & E4 & E5). rewrite E1, E2 in E.
      unfold to_signed in E. pose proof (mag_lt b N) as M.
      assert (H2 : 2 ^ bits = 2 * 2 ^ (bits - 1)).
      { rewrite <- Z.pow_succ_r by lia. f_equal. lia. }
      destruct (Z.leb_spec (2 ^ (bits - 1)) (value b + Bp (length (mag b))));
      destruct (Z.leb_spec (2 ^ (bits - 1)) (value b + 2 ^ bits)); lia.
Qed.

Lemma to_signed_range bits x : 0 < bits -> 0 <= x < 2 ^ bits ->
  - 2 ^ (bits - 1) <= to_signed bits x < 2 ^ (bits - 1).
Proof.
  intros Hb Hx. unfold to_signed.
  assert (H2 : 2 ^ bits = 2 * 2 ^ (bits - 1)).
  { rewrite <- Z.pow_succ_r by lia. f_equal. lia. }
  destruct (Z.leb_spec (2 ^ (bits - 1)) x); lia.
Qed.
