(** Proofs about the big integer model. *)
From Coq Require Import ZArith List Bool Lia ZifyBool Zquot.
Import ListNotations.
From Verif Require Import BigModel BigSpec.
Open Scope Z_scope.
Ltac Zify.zify_post_hook ::= Z.div_mod_to_equations.

Lemma B_val : B = 4294967296. Proof. reflexivity. Qed.

Lemma eval_app l1 l2 : eval (l1 ++ l2) = eval l1 + B ^ Z.of_nat (length l1) * eval l2.
Proof.
  induction l1 as [|x l1 IH]; cbn [app eval length].
  - change (Z.of_nat 0) with 0. rewrite Z.pow_0_r. lia.
  - rewrite IH, Nat2Z.inj_succ, Z.pow_succ_r by lia. rewrite B_val. ring.
Qed.

Lemma eval_zeros k : eval (repeat 0 k) = 0.
Proof. induction k as [|k IH]; cbn [repeat eval]; [reflexivity|rewrite IH; reflexivity]. Qed.

Lemma limbs_app l1 l2 : limbs l1 -> limbs l2 -> limbs (l1 ++ l2).
Proof. intros; apply Forall_app; auto. Qed.

Lemma limbs_zeros k : limbs (repeat 0 k).
Proof. apply Forall_forall. intros x H. apply repeat_spec in H. lia. Qed.

Lemma eval_nonneg l : limbs l -> 0 <= eval l.
Proof. induction 1; cbn [eval]; lia. Qed.

Lemma eval_bound l : limbs l -> 0 <= eval l < B ^ Z.of_nat (length l).
Proof.
  induction 1 as [|x l H L IH]; cbn [eval length].
  - change (Z.of_nat 0) with 0. rewrite Z.pow_0_r. lia.
  - rewrite Nat2Z.inj_succ, Z.pow_succ_r by lia. rewrite B_val in *. nia.
Qed.

Lemma Bpow_pos k : 0 < B ^ Z.of_nat k.
Proof. apply Z.pow_pos_nonneg; [reflexivity|lia]. Qed.

(** *** strip *)
Lemma eval_strip l : eval (strip l) = eval l.
Proof.
  induction l as [|x l IH]; cbn [strip eval]; [reflexivity|].
  destruct (strip l) as [|y t] eqn:E.
  - cbn [eval] in IH. destruct (Z.eqb_spec x 0); cbn [eval]; lia.
  - cbn [eval] in *. lia.
Qed.

Lemma limbs_strip l : limbs l -> limbs (strip l).
Proof.
  induction 1 as [|x l H L IH]; cbn [strip]; [constructor|].
  destruct (strip l); [destruct (x =? 0); repeat constructor; auto; lia|].
  constructor; auto.
Qed.

Lemma strip_strip l : strip (strip l) = strip l.
Proof.
  induction l as [|x l IH]; cbn [strip]; [reflexivity|].
  destruct (strip l) as [|y t] eqn:E.
  - destruct (Z.eqb_spec x 0) as [->|N]; [reflexivity|]. cbn [strip].
    destruct (Z.eqb_spec x 0); [contradiction|reflexivity].
  - change (strip (x :: y :: t)) with (match strip (y :: t) with [] => if x =? 0 then [] else [x] | t' => x :: t' end).
    rewrite IH. reflexivity.
Qed.

Lemma strip_last l : strip l = l <-> last l 1 <> 0.
Proof.
  induction l as [|x l IH]; [split; [discriminate|reflexivity]|].
  cbn [strip]. destruct l as [|y t].
  - cbn. destruct (Z.eqb_spec x 0); split; intros; congruence.
  - change (last (x :: y :: t) 1) with (last (y :: t) 1). rewrite <- IH.
    destruct (strip (y :: t)) as [|z u] eqn:E.
    + split; [|discriminate]. destruct (x =? 0); discriminate.
    + split; intros H; [injection H as -> ->; reflexivity|rewrite H; reflexivity].
Qed.

Lemma strip_length l : (length (strip l) <= length l)%nat.
Proof.
  induction l as [|x l IH]; cbn [strip length]; [lia|].
  destruct (strip l); [destruct (x =? 0); cbn [length] in *; lia|cbn [length] in *; lia].
Qed.

(** Reading past the stripped zeros gives 0. *)
Lemma nth_strip i l : nth i (strip l) 0 = nth i l 0.
Proof.
  revert i. induction l as [|x l IH]; intros i; cbn [strip]; [reflexivity|].
  destruct (strip l) as [|y t] eqn:E.
  - assert (Z0 : forall j, nth j l 0 = 0).
    { intros j. rewrite <- IH. destruct j; reflexivity. }
    destruct (Z.eqb_spec x 0) as [->|N].
    + destruct i as [|i]; cbn [nth]; [reflexivity|]. rewrite Z0. reflexivity.
    + destruct i as [|[|i]]; cbn [nth]; [reflexivity|rewrite Z0; reflexivity|rewrite Z0; reflexivity].
  - destruct i as [|i]; cbn [nth]; [reflexivity|]. apply (IH i).
Qed.

Lemma nrm_low l : limbs l -> l <> [] -> last l 1 <> 0 -> B ^ (Z.of_nat (length l) - 1) <= eval l.
Proof.
  intros L. induction L as [|x l H L IH]; intros N La; [congruence|].
  destruct l as [|y t].
  - cbn in *. change (1 - 1) with 0. lia.
  - change (last (x :: y :: t) 1) with (last (y :: t) 1) in La.
    specialize (IH ltac:(discriminate) La).
    change (eval (x :: y :: t)) with (x + B * eval (y :: t)).
    change (length (x :: y :: t)) with (S (length (y :: t))).
    set (k := length (y :: t)) in *. assert (1 <= k)%nat by (subst k; cbn; lia).
    replace (Z.of_nat (S k) - 1) with (Z.succ (Z.of_nat k - 1)) by lia.
    rewrite Z.pow_succ_r by lia. rewrite B_val in *. lia.
Qed.

Lemma eval_zero l : limbs l -> last l 1 <> 0 -> eval l = 0 -> l = [].
Proof.
  intros L La E. destruct l as [|x t]; [reflexivity|].
  pose proof (nrm_low (x :: t) L ltac:(discriminate) La) as P. rewrite E in P.
  assert (0 < B ^ (Z.of_nat (length (x :: t)) - 1)); [|lia].
  apply Z.pow_pos_nonneg; [reflexivity|cbn [length]; lia].
Qed.

Lemma eval_inj l1 : forall l2, limbs l1 -> limbs l2 -> length l1 = length l2 ->
  eval l1 = eval l2 -> l1 = l2.
Proof.
  induction l1 as [|x l1 IH]; intros [|y l2] L1 L2 Hl E; cbn [length] in Hl; try lia; [reflexivity|].
  inversion L1; inversion L2; subst. cbn [eval] in E.
  assert (x = y) by lia. subst y. f_equal. apply IH; auto; lia.
Qed.

Lemma normal_len l1 l2 : limbs l1 -> limbs l2 -> last l1 1 <> 0 -> last l2 1 <> 0 ->
  (length l1 < length l2)%nat -> eval l1 < eval l2.
Proof.
  intros L1 L2 A1 A2 Hl. pose proof (eval_bound l1 L1).
  destruct l2 as [|y t]; [cbn in Hl; lia|].
  pose proof (nrm_low (y :: t) L2 ltac:(discriminate) A2).
  assert (B ^ Z.of_nat (length l1) <= B ^ (Z.of_nat (length (y :: t)) - 1)); [|lia].
  apply Z.pow_le_mono_r; [reflexivity|lia].
Qed.

Lemma nrm_inj l1 l2 : limbs l1 -> limbs l2 -> last l1 1 <> 0 -> last l2 1 <> 0 ->
  eval l1 = eval l2 -> l1 = l2.
Proof.
  intros L1 L2 A1 A2 E.
  destruct (Nat.lt_total (length l1) (length l2)) as [H|[H|H]].
  - pose proof (normal_len l1 l2 L1 L2 A1 A2 H). lia.
  - apply eval_inj; auto.
  - pose proof (normal_len l2 l1 L2 L1 A2 A1 H). lia.
Qed.

(** *** signed and value *)
Lemma value_signed s l : value (signed s l) = if s then - eval l else eval l.
Proof. unfold value, signed. cbn [neg mag]. destruct l; destruct s; reflexivity. Qed.

Lemma normal_signed s l : limbs l -> last l 1 <> 0 -> normal (signed s l).
Proof. intros L A. unfold normal, signed. cbn [neg mag]. repeat split; auto. intros ->. reflexivity. Qed.

Lemma normal_strip s l : limbs l -> normal (signed s (strip l)).
Proof.
  intros L. apply normal_signed; [apply limbs_strip; auto|].
  apply strip_last, strip_strip.
Qed.

Lemma value_negate b : value (negate b) = - value b.
Proof. unfold negate. rewrite value_signed. unfold value. destruct (neg b); cbn [negb]; lia. Qed.

Lemma normal_negate b : normal b -> normal (negate b).
Proof. intros (L & A & _). apply normal_signed; auto. Qed.

Lemma normal_bi0 : normal bi0.
Proof. unfold normal, bi0. cbn. repeat split; auto; [constructor|discriminate]. Qed.

Lemma value_bi0 : value bi0 = 0. Proof. reflexivity. Qed.

Lemma positive_spec b : normal b ->
  (value b < 0 /\ positive b = -1 /\ neg b = true) \/
  (value b = 0 /\ positive b = 0 /\ mag b = [] /\ neg b = false) \/
  (0 < value b /\ positive b = 1 /\ neg b = false).
Proof.
  intros (L & A & N). unfold positive, value. destruct (mag b) as [|x t] eqn:E.
  - right; left. rewrite N by reflexivity. auto.
  - pose proof (nrm_low _ L ltac:(discriminate) A) as P.
    assert (0 < B ^ (Z.of_nat (length (x :: t)) - 1)) by (apply Z.pow_pos_nonneg; [reflexivity|cbn [length]; lia]).
    destruct (neg b); [left|right; right]; repeat split; lia.
Qed.

Lemma value_abs b : normal b -> eval (mag b) = Z.abs (value b).
Proof.
  intros (L & A & N). unfold value. pose proof (eval_nonneg _ L).
  destruct (neg b); lia.
Qed.

Lemma normal_inj b1 b2 : normal b1 -> normal b2 -> value b1 = value b2 -> b1 = b2.
Proof.
  intros N1 N2 E. pose proof (value_abs b1 N1) as V1. pose proof (value_abs b2 N2) as V2.
  assert (M : mag b1 = mag b2).
  { apply nrm_inj; try apply N1; try apply N2. congruence. }
  assert (S : neg b1 = neg b2).
  { destruct (positive_spec b1 N1) as [(?&_&E1)|[(?&_&_&E1)|(?&_&E1)]];
    destruct (positive_spec b2 N2) as [(?&_&E2)|[(?&_&_&E2)|(?&_&E2)]]; try lia; congruence. }
  destruct b1, b2; cbn in *; congruence.
Qed.

(** *** same_value *)
Lemma same_limbs_eq l1 : forall l2, same_limbs l1 l2 = true <-> l1 = l2.
Proof.
  induction l1 as [|x l1 IH]; intros [|y l2]; cbn [same_limbs]; split; try discriminate; auto.
  - rewrite andb_true_iff, Z.eqb_eq, IH. intros [-> ->]. reflexivity.
  - intros H. injection H as -> ->. rewrite andb_true_iff, Z.eqb_eq, IH. auto.
Qed.

Theorem same_value_spec b1 b2 : normal b1 -> normal b2 ->
  (same_value b1 b2 = true <-> value b1 = value b2).
Proof.
  intros N1 N2. unfold same_value. rewrite andb_true_iff, Z.eqb_eq, same_limbs_eq. split.
  - intros [P M]. apply (f_equal eval) in M. rewrite !value_abs in M by auto.
    destruct (positive_spec b1 N1) as [(?&E1&_)|[(?&E1&_)|(?&E1&_)]];
    destruct (positive_spec b2 N2) as [(?&E2&_)|[(?&E2&_)|(?&E2&_)]]; lia.
  - intros E. rewrite (normal_inj b1 b2 N1 N2 E). auto.
Qed.

(** *** compare *)
Lemma nth_firstn_eval l k : limbs l -> (k < length l)%nat ->
  eval (firstn (S k) l) = eval (firstn k l) + B ^ Z.of_nat k * nth k l 0.
Proof.
  revert k. induction l as [|x l IH]; intros k L Hk; cbn [length] in Hk; [lia|].
  inversion L; subst. destruct k as [|k].
  - cbn [firstn eval nth]. change (Z.of_nat 0) with 0. rewrite Z.pow_0_r. lia.
  - change (firstn (S (S k)) (x :: l)) with (x :: firstn (S k) l).
    change (firstn (S k) (x :: l)) with (x :: firstn k l).
    cbn [eval nth]. rewrite IH by (auto; lia). rewrite Nat2Z.inj_succ, Z.pow_succ_r by lia.
    rewrite B_val. ring.
Qed.

Lemma limbs_firstn k l : limbs l -> limbs (firstn k l).
Proof. intros L. apply Forall_forall. intros x H. unfold limbs in L. rewrite Forall_forall in L.
  apply L. rewrite <- (firstn_skipn k l). apply in_or_app. auto. Qed.

Lemma limbs_skipn k l : limbs l -> limbs (skipn k l).
Proof. intros L. apply Forall_forall. intros x H. unfold limbs in L. rewrite Forall_forall in L.
  apply L. rewrite <- (firstn_skipn k l). apply in_or_app. auto. Qed.

Lemma limbs_nth l i : limbs l -> 0 <= nth i l 0 < B.
Proof.
  intros L. revert i. induction L as [|x l H L IH]; intros [|i]; cbn [nth]; try (rewrite B_val; lia).
  apply IH.
Qed.

Lemma cmp_loop_spec k l1 l2 : limbs l1 -> limbs l2 -> (k <= length l1)%nat -> (k <= length l2)%nat ->
  cmp_loop k l1 l2 = cmpZ (eval (firstn k l1)) (eval (firstn k l2)).
Proof.
  intros L1 L2. induction k as [|k IH]; intros H1 H2; cbn [cmp_loop]; [reflexivity|].
  rewrite (nth_firstn_eval l1 k), (nth_firstn_eval l2 k) by (auto; lia).
  pose proof (eval_bound (firstn k l1) (limbs_firstn k l1 L1)) as E1.
  pose proof (eval_bound (firstn k l2) (limbs_firstn k l2 L2)) as E2.
  rewrite firstn_length_le in E1, E2 by lia.
  pose proof (Bpow_pos k) as P. set (p := B ^ Z.of_nat k) in *.
  pose proof (limbs_nth l1 k L1). pose proof (limbs_nth l2 k L2).
  unfold cmpZ in *.
  destruct (Z.ltb_spec (nth k l2 0) (nth k l1 0)) as [A|A].
  - assert (p * nth k l2 0 + p <= p * nth k l1 0) by nia.
    destruct (Z.eqb_spec (eval (firstn k l1) + p * nth k l1 0) (eval (firstn k l2) + p * nth k l2 0)); [lia|].
    destruct (Z.ltb_spec (eval (firstn k l1) + p * nth k l1 0) (eval (firstn k l2) + p * nth k l2 0)); [lia|].
    reflexivity.
  - destruct (Z.ltb_spec (nth k l1 0) (nth k l2 0)) as [A'|A'].
    + assert (p * nth k l1 0 + p <= p * nth k l2 0) by nia.
      destruct (Z.eqb_spec (eval (firstn k l1) + p * nth k l1 0) (eval (firstn k l2) + p * nth k l2 0)); [lia|].
      destruct (Z.ltb_spec (eval (firstn k l1) + p * nth k l1 0) (eval (firstn k l2) + p * nth k l2 0)); [|lia].
      reflexivity.
    + assert (En : nth k l1 0 = nth k l2 0) by lia. rewrite En. rewrite IH by lia.
      destruct (Z.eqb_spec (eval (firstn k l1)) (eval (firstn k l2)));
      destruct (Z.eqb_spec (eval (firstn k l1) + p * nth k l2 0) (eval (firstn k l2) + p * nth k l2 0)); try lia; auto.
      destruct (Z.ltb_spec (eval (firstn k l1)) (eval (firstn k l2)));
      destruct (Z.ltb_spec (eval (firstn k l1) + p * nth k l2 0) (eval (firstn k l2) + p * nth k l2 0)); try lia; auto.
Qed.

Lemma compare_abs_spec l1 l2 : limbs l1 -> limbs l2 -> last l1 1 <> 0 -> last l2 1 <> 0 ->
  compare_abs l1 l2 = cmpZ (eval l1) (eval l2).
Proof.
  intros L1 L2 A1 A2. unfold compare_abs.
  destruct (Nat.ltb_spec (length l1) (length l2)) as [H|H].
  - pose proof (normal_len _ _ L1 L2 A1 A2 H). unfold cmpZ.
    rewrite (proj2 (Z.eqb_neq _ _)) by lia. rewrite (proj2 (Z.ltb_lt _ _)) by lia. reflexivity.
  - destruct (Nat.ltb_spec (length l2) (length l1)) as [H'|H'].
    + pose proof (normal_len _ _ L2 L1 A2 A1 H'). unfold cmpZ.
      rewrite (proj2 (Z.eqb_neq _ _)) by lia. rewrite (proj2 (Z.ltb_ge _ _)) by lia. reflexivity.
    + rewrite cmp_loop_spec by (auto; lia). rewrite !firstn_all2 by lia. reflexivity.
Qed.

Theorem compare_spec b1 b2 : normal b1 -> normal b2 -> compare b1 b2 = cmpZ (value b1) (value b2).
Proof.
  intros N1 N2. unfold compare.
  assert (V1 := value_abs b1 N1). assert (V2 := value_abs b2 N2).
  assert (C : compare_abs (mag b1) (mag b2) = cmpZ (Z.abs (value b1)) (Z.abs (value b2))).
  { rewrite <- V1, <- V2. apply compare_abs_spec; try apply N1; try apply N2. }
  destruct (positive_spec b1 N1) as [(S1&E1&_)|[(S1&E1&_)|(S1&E1&_)]];
  destruct (positive_spec b2 N2) as [(S2&E2&_)|[(S2&E2&_)|(S2&E2&_)]];
  rewrite E1, E2; cbn -[compare_abs]; rewrite ?C; unfold cmpZ;
  repeat match goal with |- context [Z.eqb ?a ?b] => destruct (Z.eqb_spec a b)
                       | |- context [Z.ltb ?a ?b] => destruct (Z.ltb_spec a b) end; try lia; auto.
Qed.

(** *** addition *)
Lemma add_int_spec l left : limbs l -> 0 <= left < B ->
  eval (add_int l left) = eval l + left /\ limbs (add_int l left).
Proof.
  intros L. revert left. induction L as [|x l H L IH]; intros left Hl; cbn [add_int eval].
  - destruct (Z.eqb_spec left 0); cbn [eval]; split; try lia; repeat constructor; rewrite B_val in *; lia.
  - destruct (IH ((x + left) / B)) as (E & F); [rewrite B_val in *; lia|].
    rewrite E. rewrite B_val in *. split; [lia|]. constructor; [lia|auto].
Qed.

Lemma last_cons_nn (x : Z) l d : l <> [] -> last (x :: l) d = last l d.
Proof. destruct l; [congruence|reflexivity]. Qed.

Lemma add_int_last l left : limbs l -> last l 1 <> 0 -> 0 <= left < B -> last (add_int l left) 1 <> 0.
Proof.
  intros L. revert left. induction L as [|x l H L IH]; intros left A Hl; cbn [add_int].
  - destruct (Z.eqb_spec left 0); cbn; lia.
  - destruct l as [|y t].
    + cbn in A. cbn [add_int]. destruct (Z.eqb_spec ((x + left) / B) 0); cbn [last]; rewrite B_val in *; lia.
    + rewrite last_cons_nn by (cbn [add_int]; discriminate).
      apply IH; [exact A|]. rewrite B_val in *. lia.
Qed.

Lemma self_add_int_eq l left : limbs l -> 0 <= left -> self_add_int l left = add_int l left.
Proof.
  intros L. revert left. induction L as [|x l H L IH]; intros left Hl; cbn [self_add_int add_int]; [reflexivity|].
  assert (Q : forall l, limbs l -> add_int l 0 = l).
  { clear. induction 1 as [|x l H L IH]; cbn [add_int]; [reflexivity|].
    replace ((x + 0) mod B) with x by (rewrite B_val; lia).
    replace ((x + 0) / B) with 0 by (rewrite B_val; lia). rewrite IH. reflexivity. }
  destruct (Z.eqb_spec ((x + left) / B) 0) as [E|E].
  - rewrite E, Q by auto. reflexivity.
  - rewrite (IH ((x + left) / B)); [reflexivity|]. rewrite B_val. lia.
Qed.

Lemma sub_int_spec l left : limbs l -> 0 <= left <= 1 -> left <= eval l ->
  eval (sub_int_loop l left) = eval l - left /\ limbs (sub_int_loop l left).
Proof.
  intros L. revert left. induction L as [|x l H L IH]; intros left Hl He; cbn [sub_int_loop eval] in *.
  - split; [lia|constructor].
  - pose proof (eval_nonneg l L).
    destruct (Z.ltb_spec (x - left) 0) as [A|A]; cbn [eval].
    + destruct (IH 1) as (E & F); [lia|lia|]. rewrite E; rewrite ?B_val. split; [lia|]. constructor; [lia|auto].
    + destruct (IH 0) as (E & F); [lia|lia|]. rewrite E. split; [lia|]. constructor; [lia|auto].
Qed.

Lemma add_loop_comm_right l2 : forall left,
  add_loop [] l2 left = add_loop l2 [] left.
Proof.
  induction l2 as [|y l2 IH]; intros left; [reflexivity|].
  change (add_loop [] (y :: l2) left) with (((0 + y + left) mod B) :: 
    (fix add_right (l2 : list Z) (left : Z) : list Z :=
       match l2 with
       | [] => if left =? 0 then [] else [left]
       | y :: t2 => ((0 + y + left) mod B) :: add_right t2 ((0 + y + left) / B)
       end) l2 ((0 + y + left) / B)).
  cbn [add_loop]. replace (0 + y + left) with (y + 0 + left) by lia. f_equal.
  specialize (IH ((y + 0 + left) / B)). destruct l2 as [|z l2]; [reflexivity|]. exact IH.
Qed.

Lemma add_loop_int l left : add_loop l [] left = add_int l left.
Proof.
  revert left. induction l as [|x l IH]; intros left; cbn [add_loop add_int]; [reflexivity|].
  rewrite IH. replace (x + 0 + left) with (x + left) by lia. reflexivity.
Qed.

Lemma add_loop_spec l1 : forall l2 left, limbs l1 -> limbs l2 -> 0 <= left < B ->
  (left <= 1) ->
  eval (add_loop l1 l2 left) = eval l1 + eval l2 + left /\ limbs (add_loop l1 l2 left).
Proof.
  induction l1 as [|x l1 IH]; intros l2 left L1 L2 Hl Hl1.
  - rewrite add_loop_comm_right, add_loop_int. destruct (add_int_spec l2 left L2 Hl) as (E & F).
    split; [cbn [eval]; lia|auto].
  - destruct l2 as [|y l2].
    + rewrite add_loop_int. destruct (add_int_spec (x :: l1) left L1 Hl) as (E & F).
      split; [cbn [eval] in *; lia|auto].
    + inversion L1; inversion L2; subst. cbn [add_loop eval].
      destruct (IH l2 ((x + y + left) / B)) as (E & F); auto; try (rewrite B_val in *; lia).
      rewrite E. rewrite B_val in *. split; [lia|]. constructor; [lia|auto].
Qed.

Lemma add_loop_last l1 : forall l2 left, limbs l1 -> limbs l2 -> last l1 1 <> 0 -> last l2 1 <> 0 ->
  0 <= left <= 1 -> last (add_loop l1 l2 left) 1 <> 0.
Proof.
  induction l1 as [|x l1 IH]; intros l2 left L1 L2 A1 A2 Hl.
  - rewrite add_loop_comm_right, add_loop_int. apply add_int_last; auto. rewrite B_val; lia.
  - destruct l2 as [|y l2].
    + rewrite add_loop_int. apply add_int_last; auto. rewrite B_val; lia.
    + inversion L1; inversion L2; subst. cbn [add_loop].
      assert (C : 0 <= (x + y + left) / B <= 1) by (rewrite B_val; lia).
      destruct (add_loop l1 l2 ((x + y + left) / B)) as [|z u] eqn:E.
      * (* both tails empty *)
        assert (l1 = [] /\ l2 = []) as [-> ->].
        { destruct l1 as [|a l1]; [|destruct l2; cbn in E; discriminate].
          destruct l2; [auto|]. rewrite add_loop_comm_right in E. cbn in E. discriminate. }
        cbn in E. destruct (Z.eqb_spec ((x + y + left) / B) 0); [|discriminate].
        cbn in A1, A2. cbn [last]. rewrite B_val in *. lia.
      * rewrite last_cons_nn by discriminate. rewrite <- E.
        destruct l1 as [|a l1].
        { destruct l2 as [|b l2].
          - cbn in E |- *. destruct (Z.eqb_spec ((x + y + left) / B) 0); cbn; [discriminate|lia].
          - apply IH; auto. cbn. lia. }
        { destruct l2 as [|b l2].
          - apply IH; auto. cbn; lia.
          - apply IH; auto. }
Qed.

Theorem inc_spec b : normal b -> normal (inc b) /\ value (inc b) = value b + 1.
Proof.
  intros N. assert (V := value_abs b N). destruct N as (L & A & N0). assert (N : normal b) by (split; auto).
  unfold inc. destruct (add_int_spec (mag b) 1 L ltac:(rewrite B_val; lia)) as (E & F).
  assert (La : last (add_int (mag b) 1) 1 <> 0) by (apply add_int_last; auto; rewrite B_val; lia).
  destruct (positive_spec b N) as [(S1&E1&_)|[(S1&E1&_)|(S1&E1&_)]]; rewrite E1; cbn [Z.leb Z.compare].
  - destruct (sub_int_spec (mag b) 1 L) as (E' & F'); [lia|lia|].
    split; [apply normal_strip; auto|]. rewrite value_signed. unfold sub_int. rewrite eval_strip. lia.
  - split; [apply normal_signed; auto|]. rewrite value_signed. lia.
  - split; [apply normal_signed; auto|]. rewrite value_signed. lia.
Qed.

Theorem dec_spec b : normal b -> normal (dec b) /\ value (dec b) = value b - 1.
Proof.
  intros N. assert (V := value_abs b N). destruct N as (L & A & N0). assert (N : normal b) by (split; auto).
  unfold dec. destruct (add_int_spec (mag b) 1 L ltac:(rewrite B_val; lia)) as (E & F).
  assert (La : last (add_int (mag b) 1) 1 <> 0) by (apply add_int_last; auto; rewrite B_val; lia).
  destruct (positive_spec b N) as [(S1&E1&_)|[(S1&E1&_)|(S1&E1&_)]]; rewrite E1; cbn [Z.ltb Z.compare Z.eqb].
  - split; [apply normal_signed; auto|]. rewrite value_signed. lia.
  - split; [apply normal_signed; [repeat constructor; lia|cbn; lia]|]. rewrite value_signed. cbn [eval]. lia.
  - destruct (sub_int_spec (mag b) 1 L) as (E' & F'); [lia|lia|].
    split; [apply normal_strip; auto|]. rewrite value_signed. unfold sub_int. rewrite eval_strip. lia.
Qed.

Theorem not_spec b : normal b -> normal (bitwise_not b) /\ value (bitwise_not b) = - value b - 1.
Proof.
  intros N. assert (V := value_abs b N). destruct N as (L & A & N0). assert (N : normal b) by (split; auto).
  unfold bitwise_not. destruct (add_int_spec (mag b) 1 L ltac:(rewrite B_val; lia)) as (E & F).
  assert (La : last (add_int (mag b) 1) 1 <> 0) by (apply add_int_last; auto; rewrite B_val; lia).
  destruct (positive_spec b N) as [(S1&E1&_)|[(S1&E1&_)|(S1&E1&_)]]; rewrite E1; cbn [Z.leb Z.compare].
  - destruct (sub_int_spec (mag b) 1 L) as (E' & F'); [lia|lia|].
    split; [apply normal_strip; auto|]. rewrite value_signed. unfold sub_int. rewrite eval_strip. lia.
  - split; [apply normal_signed; auto|]. rewrite value_signed. lia.
  - split; [apply normal_signed; auto|]. rewrite value_signed. lia.
Qed.

Theorem minus_spec b : normal b -> normal (unary_minus b) /\ value (unary_minus b) = - value b.
Proof.
  intros N. unfold unary_minus.
  destruct (positive_spec b N) as [(S1&E1&_)|[(S1&E1&_)|(S1&E1&_)]]; rewrite E1; cbn [Z.eqb].
  - split; [apply normal_negate; auto|apply value_negate].
  - split; [apply normal_bi0|]. rewrite value_bi0. lia.
  - split; [apply normal_negate; auto|apply value_negate].
Qed.
