(** Subtraction of big integers: exactly when the borrow loop is right. *)
From Coq Require Import ZArith List Bool Lia ZifyBool.
Import ListNotations.
From Verif Require Import BigModel BigSpec BigProofs.
Open Scope Z_scope.
Ltac Zify.zify_post_hook ::= Z.div_mod_to_equations.

(** The borrow never ends before the top digit, along the loop. *)
Fixpoint chain (l1 l2 : list Z) (left : Z) : bool :=
  match l1 with
  | [] => true
  | x :: t1 =>
    if x - hd 0 l2 - left <? 0 then chain t1 (tl l2) 1
    else if left =? 0 then chain t1 (tl l2) 0
    else match t1 with [] => true | _ => false end
  end.

Lemma sub_loop_cons x t1 l2 left :
  sub_loop (x :: t1) l2 left =
  if x - hd 0 l2 - left <? 0 then (x - hd 0 l2 - left + B) :: sub_loop t1 (tl l2) 1
  else (x - hd 0 l2 - left) :: sub_loop t1 (tl l2) left.
Proof. destruct l2; reflexivity. Qed.

Lemma hd_limb l : limbs l -> 0 <= hd 0 l < B.
Proof. destruct 1; cbn [hd]; rewrite B_val; lia. Qed.
Lemma tl_limbs l : limbs l -> limbs (tl l).
Proof. destruct 1; cbn [tl]; [constructor|auto]. Qed.
Lemma eval_hd_tl l : eval l = hd 0 l + B * eval (tl l).
Proof. destruct l; reflexivity. Qed.
Lemma tl_length (l : list Z) n : (length l <= S n)%nat -> (length (tl l) <= n)%nat.
Proof. destruct l; cbn [tl length]; lia. Qed.

Lemma sub_loop_limbs l1 : forall l2 left, limbs l1 -> limbs l2 -> (length l2 <= length l1)%nat ->
  0 <= left <= 1 -> limbs (sub_loop l1 l2 left) /\ length (sub_loop l1 l2 left) = length l1.
Proof.
  induction l1 as [|x t1 IH]; intros l2 left L1 L2 Hl Hf.
  - destruct l2; [|cbn in Hl; lia]. cbn. split; [constructor|reflexivity].
  - rewrite sub_loop_cons. inversion L1; subst. pose proof (hd_limb l2 L2) as Hh.
    pose proof (tl_length l2 (length t1) Hl) as Ht.
    destruct (Z.ltb_spec (x - hd 0 l2 - left) 0).
    + destruct (IH (tl l2) 1) as (F & G); auto using tl_limbs; try lia.
      split; [constructor; auto; rewrite B_val in *; lia|cbn [length]; lia].
    + destruct (IH (tl l2) left) as (F & G); auto using tl_limbs.
      split; [constructor; auto; rewrite B_val in *; lia|cbn [length]; lia].
Qed.

(** What the loop computes: the difference, minus an error [e] that is zero
    exactly on the chains. *)
Lemma sub_loop_value l1 : forall l2 left, limbs l1 -> limbs l2 -> (length l2 <= length l1)%nat ->
  0 <= left <= 1 ->
  exists e c, eval (sub_loop l1 l2 left) = eval l1 - eval l2 - left - e + c * B ^ Z.of_nat (length l1)
    /\ 0 <= c <= 1 /\ 0 <= e /\ (B - 1) * e <= B ^ Z.of_nat (length l1) - (if length l1 then 1 else B)
    /\ (chain l1 l2 left = true -> e = 0) /\ (chain l1 l2 left = false -> 0 < e)
    /\ (l1 = [] -> c = left).
Proof.
  induction l1 as [|x t1 IH]; intros l2 left L1 L2 Hl Hf.
  - destruct l2; [|cbn in Hl; lia]. exists 0, left. cbn [sub_loop sub_right eval length chain].
    change (Z.of_nat 0) with 0. rewrite Z.pow_0_r. repeat split; try lia; discriminate.
  - rewrite sub_loop_cons. inversion L1; subst. pose proof (hd_limb l2 L2) as Hh.
    pose proof (tl_length l2 (length t1) Hl) as Ht. rewrite (eval_hd_tl l2). cbn [chain].
    cbn [length]. rewrite Nat2Z.inj_succ, Z.pow_succ_r by lia.
    pose proof (Bpow_pos (length t1)) as Pp.
    destruct (Z.ltb_spec (x - hd 0 l2 - left) 0) as [Hb|Hb].
    + destruct (IH (tl l2) 1) as (e & c & E & Hc & He & Hm & Ht1 & Hf1 & Hn); auto using tl_limbs; try lia.
      exists (B * e), c. cbn [eval]. change 4294967296 with B. rewrite E. split; [ring|].
      split; [lia|]. split; [rewrite B_val in *; lia|].
      split; [rewrite B_val in *; destruct (length t1); nia|].
      split; [intros C; rewrite (Ht1 C); lia|].
      split; [intros C; specialize (Hf1 C); rewrite B_val; lia|discriminate].
    + destruct (Z.eqb_spec left 0) as [->|Nz].
      * destruct (IH (tl l2) 0) as (e & c & E & Hc & He & Hm & Ht1 & Hf1 & Hn); auto using tl_limbs; try lia.
        exists (B * e), c. cbn [eval]. change 4294967296 with B. rewrite E. split; [ring|].
        split; [lia|]. split; [rewrite B_val in *; lia|].
        split; [rewrite B_val in *; destruct (length t1); nia|].
        split; [intros C; rewrite (Ht1 C); lia|].
        split; [intros C; specialize (Hf1 C); rewrite B_val; lia|discriminate].
      * assert (left = 1) by lia. subst left.
        destruct (IH (tl l2) 1) as (e & c & E & Hc & He & Hm & Ht1 & Hf1 & Hn); auto using tl_limbs; try lia.
        destruct t1 as [|x1 t1].
        { (* top digit *) exists 0, 0.
          destruct (tl l2) as [|] eqn:Etl; [|cbn in Ht; lia].
          cbn [sub_loop sub_right eval length]. change (Z.of_nat 0) with 0. rewrite Z.pow_0_r.
          rewrite B_val in *. repeat split; try lia; discriminate. }
        { exists (B * (1 + e)), c. cbn [eval]. change 4294967296 with B.
          change (x1 + B * eval t1) with (eval (x1 :: t1)).
          rewrite E. split; [cbn [eval]; change 4294967296 with B; ring|].
          split; [lia|]. split; [rewrite B_val in *; lia|].
          split; [cbn [length] in *; rewrite B_val in *; lia|].
          split; [discriminate|]. split; [intros _; rewrite B_val; lia|discriminate]. }
Qed.

Lemma sub_loop_exact l1 l2 : limbs l1 -> limbs l2 -> (length l2 <= length l1)%nat ->
  eval l2 <= eval l1 ->
  (eval (sub_loop l1 l2 0) = eval l1 - eval l2 <-> chain l1 l2 0 = true).
Proof.
  intros L1 L2 Hl Hle.
  destruct (sub_loop_value l1 l2 0 L1 L2 Hl ltac:(lia)) as (e & c & E & Hc & He & Hm & Ht & Hf & Hn).
  destruct (sub_loop_limbs l1 l2 0 L1 L2 Hl ltac:(lia)) as (F & G).
  pose proof (eval_bound _ F) as Bd. rewrite G in Bd.
  pose proof (eval_bound _ L1) as B1. pose proof (eval_bound _ L2) as B2.
  pose proof (Bpow_pos (length l1)) as Pp.
  destruct (chain l1 l2 0).
  - split; auto. intros _. rewrite (Ht eq_refl) in *.
    assert (c = 0 \/ c = 1) as [->| ->] by lia; lia.
  - split; [|discriminate]. intros E'. specialize (Hf eq_refl). exfalso.
    assert (e < B ^ Z.of_nat (length l1)).
    { rewrite B_val in *. destruct (length l1); lia. }
    assert (c = 0 \/ c = 1) as [->| ->] by lia; lia.
Qed.

(** The same condition on the integers. *)
Lemma Bp_S i : Bp (S i) = B * Bp i.
Proof. unfold Bp. rewrite Nat2Z.inj_succ, Z.pow_succ_r by lia. reflexivity. Qed.
Lemma Bp_pos i : 0 < Bp i.
Proof. apply (Bpow_pos i). Qed.
Lemma Bp_0 : Bp 0 = 1. Proof. reflexivity. Qed.

Lemma mod_Bp_S x m i : 0 <= x < B -> (x + B * m) mod Bp (S i) = x + B * (m mod Bp i).
Proof.
  intros H. rewrite Bp_S. symmetry. pose proof (Bp_pos i) as P.
  pose proof (Z.mod_pos_bound m (Bp i) P) as Mb. pose proof (Z.div_mod m (Bp i) ltac:(lia)) as Dm.
  apply (Z.mod_unique_pos _ _ (m / Bp i)).
  - generalize dependent (m mod Bp i). generalize dependent (Bp i). intros p P r Mb Dm. rewrite B_val in *. nia.
  - rewrite Dm at 1. ring.
Qed.

Definition bin (l1 l2 : list Z) (left : Z) (i : nat) : Prop :=
  eval l1 mod Bp i < eval l2 mod Bp i + left.

Lemma bin_S x t1 l2 left i : 0 <= x < B -> limbs l2 -> 0 <= left <= 1 ->
  (bin (x :: t1) l2 left (S i) <->
   bin t1 (tl l2) (if x - hd 0 l2 - left <? 0 then 1 else 0) i).
Proof.
  intros Hx L2 Hf. unfold bin. rewrite (eval_hd_tl l2). cbn [eval]. change 4294967296 with B.
  pose proof (hd_limb l2 L2) as Hh.
  rewrite !mod_Bp_S by auto.
  generalize (eval t1 mod Bp i) (eval (tl l2) mod Bp i). intros a b. rewrite B_val in *.
  destruct (Z.ltb_spec (x - hd 0 l2 - left) 0); lia.
Qed.

Lemma bin_0 l1 l2 left : bin l1 l2 left 0 <-> 0 < left.
Proof. unfold bin. rewrite Bp_0, !Z.mod_1_r. lia. Qed.

Lemma chain_bin l1 : forall l2 left, limbs l1 -> limbs l2 -> 0 <= left <= 1 ->
  (chain l1 l2 left = true <->
   forall i j, (i <= j)%nat -> (j < length l1)%nat -> bin l1 l2 left i -> bin l1 l2 left j).
Proof.
  induction l1 as [|x t1 IH]; intros l2 left L1 L2 Hf.
  - split; [intros _ i j H H'; cbn in H'; lia|reflexivity].
  - inversion L1; subst. cbn [chain length].
    assert (S0 := fun i => bin_S x t1 l2 left i H1 L2 Hf).
    destruct (Z.ltb_spec (x - hd 0 l2 - left) 0) as [Hb|Hb].
    + rewrite IH by (auto using tl_limbs; lia). split; intros H i j Hij Hj Hi.
      * destruct j as [|j]; [replace i with 0%nat in Hi by lia; exact Hi|]. apply S0.
        destruct i as [|i]; [apply (H 0%nat j); [lia|lia|apply bin_0; lia]|].
        apply (H i j); [lia|lia|]. apply S0. exact Hi.
      * apply S0. apply (H (S i) (S j)); [lia|lia|]. apply S0. exact Hi.
    + destruct (Z.eqb_spec left 0) as [->|Nz].
      * rewrite IH by (auto using tl_limbs; lia). split; intros H i j Hij Hj Hi.
        -- destruct i as [|i]; [apply bin_0 in Hi; lia|]. destruct j as [|j]; [lia|].
           apply S0. apply (H i j); [lia|lia|]. apply S0. exact Hi.
        -- apply S0. apply (H (S i) (S j)); [lia|lia|]. apply S0. exact Hi.
      * destruct t1 as [|x1 t1].
        -- split; auto. intros _ i j Hij Hj Hi. cbn in Hj. replace j with 0%nat by lia.
           apply bin_0. lia.
        -- split; [discriminate|]. intros H. exfalso.
           assert (Hc : bin (x :: x1 :: t1) l2 left 1).
           { apply (H 0%nat 1%nat); [lia|cbn; lia|]. apply bin_0. lia. }
           apply S0 in Hc. apply bin_0 in Hc. lia.
Qed.

Lemma chain_borrow l1 l2 : limbs l1 -> limbs l2 -> last l1 1 <> 0 ->
  (chain l1 l2 0 = true <-> borrow_chain (eval l1) (eval l2)).
Proof.
  intros L1 L2 A. rewrite chain_bin by (auto; lia). unfold borrow_chain, borrow, bin.
  assert (Q : forall j, (j < length l1)%nat <-> Bp j <= eval l1).
  { intros j. pose proof (eval_bound l1 L1) as Bd. split; intros H.
    - assert (N : l1 <> []) by (intros ->; cbn in H; lia).
      pose proof (nrm_low l1 L1 N A). unfold Bp. change 4294967296 with B.
      assert (B ^ Z.of_nat j <= B ^ (Z.of_nat (length l1) - 1)); [|lia].
      apply Z.pow_le_mono_r; [reflexivity|lia].
    - destruct (Nat.lt_ge_cases j (length l1)) as [G|G]; auto. exfalso.
      assert (B ^ Z.of_nat (length l1) <= Bp j); [|lia].
      unfold Bp. change 4294967296 with B. apply Z.pow_le_mono_r; [reflexivity|lia]. }
  split; intros H i j Hij Hj Hi.
  - apply Q in Hj. specialize (H i j Hij Hj). lia.
  - apply Q in Hj. specialize (H i j Hij Hj). lia.
Qed.

Lemma self_sub_eq l1 : forall l2 left, limbs l1 -> limbs l2 -> (length l2 <= length l1)%nat ->
  0 <= left <= 1 -> self_sub_loop l1 l2 left = sub_loop l1 l2 left.
Proof.
  assert (Q : forall l, limbs l -> sub_loop l [] 0 = l).
  { induction 1 as [|x l H L IH]; cbn [sub_loop]; [reflexivity|].
    rewrite (proj2 (Z.ltb_ge _ _)) by lia. rewrite IH. f_equal. lia. }
  induction l1 as [|x t1 IH]; intros l2 left L1 L2 Hl Hf; [reflexivity|].
  inversion L1; subst. destruct l2 as [|y t2]; cbn [self_sub_loop sub_loop].
  - destruct (Z.ltb_spec (x - 0 - left) 0).
    + rewrite IH; auto; [cbn; lia|lia].
    + destruct (Z.eqb_spec left 0) as [->|]; [rewrite Q by auto; reflexivity|].
      rewrite IH; auto. cbn; lia.
  - inversion L2; subst. cbn [length] in Hl.
    destruct (Z.ltb_spec (x - y - left) 0); rewrite IH; auto; lia.
Qed.

Lemma sub_spec l1 l2 : limbs l1 -> limbs l2 -> last l1 1 <> 0 -> last l2 1 <> 0 ->
  normal (sub l1 l2) /\
  (value (sub l1 l2) = eval l1 - eval l2 <->
   borrow_chain (Z.max (eval l1) (eval l2)) (Z.min (eval l1) (eval l2))).
Proof.
  intros L1 L2 A1 A2. unfold sub. rewrite compare_abs_spec by auto. unfold cmpZ.
  assert (Len : forall l1 l2, limbs l1 -> limbs l2 -> last l1 1 <> 0 -> last l2 1 <> 0 ->
            eval l2 <= eval l1 -> (length l2 <= length l1)%nat).
  { intros m1 m2 M1 M2 C1 C2 E. destruct (Nat.le_gt_cases (length m2) (length m1)); auto.
    pose proof (normal_len m1 m2 M1 M2 C1 C2 ltac:(lia)). lia. }
  destruct (Z.eqb_spec (eval l1) (eval l2)) as [E|E].
  - split; [apply normal_bi0|]. rewrite value_bi0. split; [|lia]. intros _.
    rewrite E, Z.max_id, Z.min_id. intros i j _ _ H. unfold borrow in H. lia.
  - destruct (Z.ltb_spec (eval l1) (eval l2)) as [H|H].
    + assert (Hl := Len l2 l1 L2 L1 A2 A1 ltac:(lia)). unfold sub_greater.
      destruct (sub_loop_limbs l2 l1 0 L2 L1 Hl ltac:(lia)) as (F & _).
      split; [apply normal_strip; auto|]. rewrite value_signed, eval_strip.
      rewrite Z.max_r, Z.min_l by lia. rewrite <- chain_borrow by auto.
      rewrite <- sub_loop_exact by (auto; lia). lia.
    + assert (Hl := Len l1 l2 L1 L2 A1 A2 ltac:(lia)). unfold sub_greater.
      destruct (sub_loop_limbs l1 l2 0 L1 L2 Hl ltac:(lia)) as (F & _).
      split; [apply normal_strip; auto|]. rewrite value_signed, eval_strip.
      rewrite Z.max_l, Z.min_r by lia. rewrite <- chain_borrow by auto.
      rewrite <- sub_loop_exact by (auto; lia). lia.
Qed.

Lemma neg_pos b : normal b -> (positive b <? 0) = (value b <? 0).
Proof.
  intros N. destruct (positive_spec b N) as [(S1&E1&_)|[(S1&E1&_)|(S1&E1&_)]]; rewrite E1;
  destruct (Z.ltb_spec (value b) 0); try lia; reflexivity.
Qed.


Theorem add_spec a b : normal a -> normal b ->
  normal (big_add a b) /\
  (value (big_add a b) = value a + value b <->
   same_sign (value a) (value b) \/
   borrow_chain (Z.max (Z.abs (value a)) (Z.abs (value b))) (Z.min (Z.abs (value a)) (Z.abs (value b)))).
Proof.
  intros Na Nb. unfold big_add. rewrite !neg_pos by auto.
  assert (Va := value_abs a Na). assert (Vb := value_abs b Nb).
  assert (La := proj1 Na). assert (Lb := proj1 Nb).
  assert (Aa := proj1 (proj2 Na)). assert (Ab := proj1 (proj2 Nb)).
  destruct (add_loop_spec (mag a) (mag b) 0 La Lb ltac:(rewrite B_val; lia) ltac:(lia)) as (E & F).
  assert (G : last (add_loop (mag a) (mag b) 0) 1 <> 0) by (apply add_loop_last; auto; lia).
  destruct (sub_spec (mag a) (mag b) La Lb Aa Ab) as (N & V). rewrite Va, Vb in V.
  unfold same_sign.
  destruct (Z.ltb_spec (value a) 0) as [Ha|Ha]; destruct (Z.ltb_spec (value b) 0) as [Hb|Hb]; cbn [Bool.eqb].
  - split; [apply normal_negate, normal_signed; auto|].
    rewrite value_negate, value_signed. lia.
  - split; [apply normal_negate; auto|]. rewrite value_negate. rewrite <- V. lia.
  - split; [auto|]. rewrite <- V. lia.
  - split; [apply normal_signed; auto|]. rewrite value_signed. lia.
Qed.

Theorem subtract_spec a b : normal a -> normal b ->
  normal (big_subtract a b) /\
  (value (big_subtract a b) = value a - value b <->
   ~ same_sign (value a) (value b) \/
   borrow_chain (Z.max (Z.abs (value a)) (Z.abs (value b))) (Z.min (Z.abs (value a)) (Z.abs (value b)))).
Proof.
  intros Na Nb. unfold big_subtract. rewrite !neg_pos by auto.
  assert (Va := value_abs a Na). assert (Vb := value_abs b Nb).
  assert (La := proj1 Na). assert (Lb := proj1 Nb).
  assert (Aa := proj1 (proj2 Na)). assert (Ab := proj1 (proj2 Nb)).
  destruct (add_loop_spec (mag a) (mag b) 0 La Lb ltac:(rewrite B_val; lia) ltac:(lia)) as (E & F).
  assert (G : last (add_loop (mag a) (mag b) 0) 1 <> 0) by (apply add_loop_last; auto; lia).
  destruct (sub_spec (mag a) (mag b) La Lb Aa Ab) as (N & V). rewrite Va, Vb in V.
  unfold same_sign.
  destruct (Z.ltb_spec (value a) 0) as [Ha|Ha]; destruct (Z.ltb_spec (value b) 0) as [Hb|Hb]; cbn [Bool.eqb].
  - split; [apply normal_negate; auto|]. rewrite value_negate. rewrite <- V. lia.
  - split; [apply normal_negate, normal_signed; auto|]. rewrite value_negate, value_signed. lia.
  - split; [apply normal_signed; auto|]. rewrite value_signed. lia.
  - split; [auto|]. rewrite <- V. lia.
Qed.

(** Small operands never meet the borrow fault. *)
Lemma borrow_chain_two a b : 0 <= b <= a -> a < 18446744073709551616 -> borrow_chain a b.
Proof.
  intros H Ha i j Hij Hj Hi. destruct j as [|[|j]].
  - replace i with 0%nat in Hi by lia. exact Hi.
  - destruct i as [|[|i]]; [|exact Hi|lia]. unfold borrow in Hi. rewrite Bp_0, !Z.mod_1_r in Hi. lia.
  - exfalso. rewrite !Bp_S in Hj. pose proof (Bp_pos j). rewrite B_val in Hj. nia.
Qed.
