(** Division of big integers. *)
From Coq Require Import ZArith Zquot List Bool Lia ZifyBool.
Import ListNotations.
From Verif Require Import BigModel BigSpec BigProofs BigSubProofs BigMulProofs BigBitProofs.
Open Scope Z_scope.
Ltac Zify.zify_post_hook ::= Z.div_mod_to_equations.


Lemma self_sub_spec l1 l2 : limbs l1 -> limbs l2 -> last l1 1 <> 0 -> last l2 1 <> 0 ->
  eval l2 <= eval l1 -> borrow_chain (eval l1) (eval l2) ->
  limbs (self_sub_greater l1 l2) /\ last (self_sub_greater l1 l2) 1 <> 0 /\
  eval (self_sub_greater l1 l2) = eval l1 - eval l2.
Proof.
  intros L1 L2 A1 A2 Hle Hc.
  assert (Len : (length l2 <= length l1)%nat).
  { destruct (Nat.le_gt_cases (length l2) (length l1)) as [|H]; auto. exfalso.
    assert (N2 : l2 <> []) by (intros ->; cbn in H; lia).
    pose proof (nrm_low l2 L2 N2 A2) as Lo. pose proof (eval_bound l1 L1) as Hi.
    assert (B ^ Z.of_nat (length l1) <= B ^ (Z.of_nat (length l2) - 1)) by (apply Z.pow_le_mono_r; [reflexivity|lia]).
    lia. }
  unfold self_sub_greater. rewrite self_sub_eq by (auto; lia).
  destruct (sub_loop_limbs l1 l2 0 L1 L2 Len ltac:(lia)) as (F & _).
  split; [apply limbs_strip; auto|]. split; [apply strip_last, strip_strip|].
  rewrite eval_strip. apply sub_loop_exact; auto. apply chain_borrow; auto.
Qed.

Definition dtop (op2 : list Z) : Z := eval op2 / Bp (length op2 - 1).
Definition dsor (op2 : list Z) (shift : nat) : Z :=
  dtop op2 + (if Nat.eqb (shift + length op2 - 1) 0 then 0 else 1).
Definition unit_of (op2 : list Z) (shift : nat) : Z := Bp (shift + length op2 - 1).

Definition divisor (op2 : list Z) : Prop := limbs op2 /\ last op2 1 <> 0 /\ op2 <> [] /\ 2 <= eval op2.
Definition good (a : Z) (op2 : list Z) (shift : nat) (left qr : list Z) : Prop :=
  limbs left /\ last left 1 <> 0 /\ limbs qr /\ last qr 1 <> 0 /\
  eval left <= a /\ eval left < Bp (shift + length op2 + 1).

Lemma divisor_len op2 : divisor op2 -> (0 < length op2)%nat.
Proof. intros (_ & _ & N & _). destruct op2; [congruence|cbn; lia]. Qed.

Lemma dtop_spec op2 : divisor op2 ->
  1 <= dtop op2 < B /\ dtop op2 * Bp (length op2 - 1) <= eval op2 < (dtop op2 + 1) * Bp (length op2 - 1)
  /\ (length op2 = 1%nat -> dtop op2 = eval op2).
Proof.
  intros D. pose proof (divisor_len _ D) as Hl. destruct D as (L & A & N & H2). unfold dtop.
  pose proof (nrm_low op2 L N A) as Lo. pose proof (eval_bound op2 L) as Hi.
  change (B ^ Z.of_nat (length op2)) with (Bp (length op2)) in Hi.
  replace (Bp (length op2)) with (B * Bp (length op2 - 1)) in Hi
    by (rewrite <- Bp_S; f_equal; lia).
  replace (B ^ (Z.of_nat (length op2) - 1)) with (Bp (length op2 - 1)) in Lo
    by (unfold Bp; change 4294967296 with B; f_equal; lia).
  pose proof (Bp_pos (length op2 - 1)) as P. set (u := Bp (length op2 - 1)) in *.
  pose proof (Z.div_mod (eval op2) u ltac:(lia)) as DM. pose proof (Z.mod_pos_bound (eval op2) u P) as MB.
  split; [split; [apply Z.div_le_lower_bound; lia|apply Z.div_lt_upper_bound; lia]|].
  split; [lia|]. intros E. unfold u. rewrite E. change (1 - 1)%nat with 0%nat. rewrite Bp_0. apply Z.div_1_r.
Qed.

Lemma cmpl_nth op2 shift : divisor op2 ->
  nth (shift + length op2 - 1) (repeat 0 shift ++ op2) 0 = dtop op2.
Proof.
  intros D. pose proof (divisor_len _ D) as Hl. destruct (dtop_spec op2 D) as (H1 & _).
  rewrite app_nth2 by (rewrite repeat_length; lia). rewrite repeat_length.
  replace (shift + length op2 - 1 - shift)%nat with (length op2 - 1)%nat by lia.
  rewrite <- eval_nth by apply D. fold (dtop op2). apply Z.mod_small. lia.
Qed.

Lemma cmpl_spec op2 shift : divisor op2 ->
  normal (signed false (repeat 0 shift ++ op2)) /\
  eval (repeat 0 shift ++ op2) = Bp shift * eval op2 /\ limbs (repeat 0 shift ++ op2) /\
  last (repeat 0 shift ++ op2) 1 <> 0 /\ repeat 0 shift ++ op2 <> [].
Proof.
  intros (L & A & N & H2).
  assert (Lc : limbs (repeat 0 shift ++ op2)) by (apply limbs_app; auto; apply limbs_zeros).
  assert (Ac : last (repeat 0 shift ++ op2) 1 <> 0) by (rewrite last_app_nn; auto).
  split; [apply normal_signed; auto|]. split.
  - rewrite eval_app, eval_zeros, repeat_length. change (B ^ Z.of_nat shift) with (Bp shift). lia.
  - repeat split; auto. destruct op2; [congruence|]. destruct shift; discriminate.
Qed.

Ltac Zify.zify_post_hook ::= idtac.
Lemma div_digit_spec a op2 shift left qr : divisor op2 -> good a op2 shift left qr ->
  div_digit left (repeat 0 shift ++ op2) (shift + length op2) (Nat.eqb shift 0) =
    let q := eval left / unit_of op2 shift / dsor op2 shift in
    Z.min (if q =? 0 then (if (Nat.eqb shift 0) && (eval op2 <=? eval left) then 1 else 0) else q) (B - 1).
Proof.
  intros D G. pose proof (divisor_len _ D) as Hl. destruct (dtop_spec op2 D) as (H1 & H2 & H3).
  destruct G as (L & A & _ & _ & Ha & Hb). unfold div_digit. rewrite cmpl_nth by auto. fold (dsor op2 shift).
  set (size := (shift + length op2)%nat) in *.
  assert (V1 : nth (size - 1) left 0 + (if (size <? length left)%nat then nth size left 0 * B else 0)
     = eval left / unit_of op2 shift).
  { unfold unit_of. fold size.
    replace (if (size <? length left)%nat then nth size left 0 * B else 0) with (nth size left 0 * B).
    2:{ destruct (Nat.ltb_spec size (length left)); auto. rewrite nth_overflow by lia. lia. }
    rewrite <- !eval_nth by auto.
    pose proof (eval_nonneg left L) as Nn. set (X := eval left) in *.
    set (u := Bp (size - 1)). assert (Pu : 0 < u) by apply Bp_pos.
    assert (Es : Bp size = B * u) by (unfold u; rewrite <- Bp_S; f_equal; lia).
    assert (Es1 : Bp (size + 1) = B * (B * u)) by (rewrite <- Es, <- Bp_S; f_equal; lia).
    rewrite Es, (Z.mul_comm B u), <- Z.div_div by (rewrite ?B_val; lia).
    rewrite (Z.mod_small (X / u / B)).
    - rewrite (Z.mul_comm _ B), Z.add_comm. symmetry. apply Z.div_mod. rewrite B_val; lia.
    - split; [apply Z.div_pos; [apply Z.div_pos; lia|reflexivity]|].
      apply Z.div_lt_upper_bound; [reflexivity|]. apply Z.div_lt_upper_bound; [lia|].
      rewrite Es1 in Hb. lia. }
  rewrite V1. cbv zeta. set (q := eval left / unit_of op2 shift / dsor op2 shift).
  assert (C : shift = 0%nat ->
    match compare (signed false left) (signed false (repeat 0 shift ++ op2)) with CEqual | CGreater => 1 | _ => 0 end
    = if eval op2 <=? eval left then 1 else 0).
  { intros ->. cbn [repeat app]. rewrite compare_spec by (apply normal_signed; auto; apply D).
    rewrite !value_signed. unfold cmpZ.
    destruct (Z.eqb_spec (eval left) (eval op2)); destruct (Z.ltb_spec (eval left) (eval op2));
    destruct (Z.leb_spec (eval op2) (eval left)); try lia; reflexivity. }
  destruct (Nat.eqb_spec shift 0) as [E|E]; cbn [andb].
  - rewrite C by auto. destruct (Z.eqb_spec q 0).
    + destruct (eval op2 <=? eval left); reflexivity.
    + destruct (Z.ltb_spec (B - 1) q); lia.
  - destruct (Z.eqb_spec q 0); [reflexivity|]. destruct (Z.ltb_spec (B - 1) q); lia.
Qed.
Ltac Zify.zify_post_hook ::= Z.div_mod_to_equations.

Lemma dsor_spec op2 shift : divisor op2 ->
  1 <= dtop op2 /\ 2 <= dsor op2 shift /\ (dsor op2 shift = dtop op2 + 1 \/ dsor op2 shift = dtop op2) /\
  dtop op2 * unit_of op2 shift <= Bp shift * eval op2 <= dsor op2 shift * unit_of op2 shift /\
  0 < unit_of op2 shift /\
  (dsor op2 shift = dtop op2 -> shift = 0%nat /\ unit_of op2 shift = 1 /\ dtop op2 = eval op2).
Proof.
  intros D. pose proof (divisor_len _ D) as Hl. destruct (dtop_spec op2 D) as (H1 & H2 & H3).
  unfold dsor, unit_of. replace (shift + length op2 - 1)%nat with (shift + (length op2 - 1))%nat by lia.
  rewrite Bp_add. pose proof (Bp_pos shift) as Ps. pose proof (Bp_pos (length op2 - 1)) as Pl.
  destruct (Nat.eqb_spec (shift + (length op2 - 1)) 0).
  - assert (shift = 0%nat) by lia. assert (length op2 = 1%nat) by lia.
    pose proof (H3 H0) as H4. destruct D as (_ & _ & _ & H5).
    rewrite H, H0. change (1 - 1)%nat with 0%nat. rewrite !Bp_0. repeat split; lia.
  - repeat split; try lia; nia.
Qed.

(** one round of the inner loop *)
Lemma div_step a op2 shift left qr n : divisor op2 -> step_ok a (eval op2) (length op2) ->
  good a op2 shift left qr ->
  n = div_digit left (repeat 0 shift ++ op2) (shift + length op2) (Nat.eqb shift 0) -> n <> 0 ->
  let qr' := add_loop qr (repeat 0 shift ++ [n]) 0 in
  let left' := self_sub_greater left (mag (mul_int (signed false (repeat 0 shift ++ op2)) n 0)) in
  0 < n < B /\ n * (Bp shift * eval op2) <= eval left /\
  good a op2 shift left' qr' /\
  eval left' = eval left - n * (Bp shift * eval op2) /\ eval qr' = eval qr + n * Bp shift.
Proof.
  intros D SO G En N0. rewrite (div_digit_spec a op2 shift left qr D G) in En. cbv zeta in En.
  destruct (dsor_spec op2 shift D) as (T1 & T2 & T3 & T4 & T5 & T6).
  destruct (cmpl_spec op2 shift D) as (Nc & Ec & Lc & Ac & Nn).
  destruct G as (L & A & Lq & Aq & Ha & Hb).
  pose proof (eval_nonneg left L) as X0. set (X := eval left) in *. set (u := unit_of op2 shift) in *.
  set (DD := dsor op2 shift) in *. set (q := X / u / DD) in *.
  assert (Q0 : 0 <= q) by (apply Z.div_pos; [apply Z.div_pos; lia|lia]).
  assert (HX : q * (DD * u) <= X).
  { pose proof (Z.mul_div_le (X / u) DD ltac:(lia)). pose proof (Z.mul_div_le X u ltac:(lia)). fold q in H. nia. }
  assert (Hn : 0 < n < B /\ n * (Bp shift * eval op2) <= X).
  { destruct (Z.eqb_spec q 0).
    - destruct (Nat.eqb_spec shift 0); cbn [andb] in En; [|rewrite B_val in En; lia].
      destruct (Z.leb_spec (eval op2) X); [|rewrite B_val in En; lia].
      assert (n = 1) by (rewrite B_val in En; lia). subst n. rewrite e0, Bp_0, B_val. lia.
    - rewrite B_val in *. split; [lia|]. assert (n <= q) by lia.
      assert (0 < Bp shift * eval op2) by (pose proof (Bp_pos shift); destruct D as (_ & _ & _ & ?); nia).
      nia. }
  destruct Hn as (Hn & Hle). cbv zeta. split; auto. split; auto.
  destruct (mul_int_spec (signed false (repeat 0 shift ++ op2)) n 0 Nc ltac:(lia)) as (Nm & Em & _).
  { cbn [mag signed]. exact Nn. }
  cbn [mag signed] in Em. rewrite Ec, Bp_0, Z.mul_1_r in Em.
  set (t := mag (mul_int (signed false (repeat 0 shift ++ op2)) n 0)) in *.
  destruct (self_sub_spec left t L (proj1 Nm) A (proj1 (proj2 Nm))) as (L' & A' & E').
  { fold X. lia. }
  { rewrite Em. fold X. apply SO; auto; lia. }
  assert (Ln : limbs (repeat 0 shift ++ [n])).
  { apply limbs_app; [apply limbs_zeros|]. constructor; [rewrite B_val in Hn; lia|constructor]. }
  destruct (add_loop_spec qr (repeat 0 shift ++ [n]) 0) as (Eq & Fq); auto; try (rewrite B_val; lia); try lia.
  assert (Aqq : last (add_loop qr (repeat 0 shift ++ [n]) 0) 1 <> 0).
  { apply add_loop_last; auto; try lia. rewrite last_last. lia. }
  assert (P0 : 0 <= n * (Bp shift * eval op2)).
  { pose proof (Bp_pos shift). destruct D as (_ & _ & _ & ?). nia. }
  rewrite Em in E'. fold X in E'.
  repeat split; auto; try lia.
  rewrite Eq, eval_app, eval_zeros, repeat_length. cbn [eval]. change (B ^ Z.of_nat shift) with (Bp shift). lia.
Qed.

Definition inner_ok (fuel : nat) (a : Z) (op2 : list Z) (shift : nat) (left qr : list Z) : Prop :=
  exists left' qr',
    div_inner fuel left (repeat 0 shift ++ op2) qr (shift + length op2) shift (Nat.eqb shift 0) = Some (left', qr') /\
    good a op2 shift left' qr' /\
    eval left' + eval qr' * eval op2 = eval left + eval qr * eval op2 /\
    eval left' / unit_of op2 shift < dsor op2 shift /\ (shift = 0%nat -> eval left' < eval op2).

Lemma inner_step f a op2 shift left qr : divisor op2 -> step_ok a (eval op2) (length op2) ->
  good a op2 shift left qr ->
  let n := div_digit left (repeat 0 shift ++ op2) (shift + length op2) (Nat.eqb shift 0) in
  n <> 0 ->
  (forall left' qr', good a op2 shift left' qr' -> eval left' = eval left - n * (Bp shift * eval op2) ->
     inner_ok f a op2 shift left' qr') ->
  inner_ok (S f) a op2 shift left qr.
Proof.
  intros D SO G n N0 H.
  destruct (div_step a op2 shift left qr n D SO G eq_refl N0) as (H1 & H2 & H3 & H4 & H5).
  destruct (H _ _ H3 H4) as (l' & q' & E & G' & S' & B1 & B2).
  exists l', q'. cbn [div_inner]. fold n. rewrite (proj2 (Z.eqb_neq n 0) N0). cbv zeta.
  repeat split; auto; try apply G'. rewrite S', H4, H5. ring.
Qed.

(** the phases of the inner loop, from the last to the first *)
Lemma phase0 f a op2 shift left qr : divisor op2 -> step_ok a (eval op2) (length op2) ->
  good a op2 shift left qr -> eval left / unit_of op2 shift < dsor op2 shift ->
  inner_ok (S (S f)) a op2 shift left qr.
Proof.
  intros D SO G Hv. destruct (dsor_spec op2 shift D) as (T1 & T2 & T3 & T4 & T5 & T6).
  assert (Stop : forall g l r, good a op2 shift l r -> eval l / unit_of op2 shift < dsor op2 shift ->
     (shift = 0%nat -> eval l < eval op2) -> inner_ok (S g) a op2 shift l r).
  { intros g l r Gl Hl Hs. exists l, r. cbn [div_inner]. rewrite (div_digit_spec a op2 shift l r D Gl). cbv zeta.
    assert (0 <= eval l) by (apply eval_nonneg, Gl).
    rewrite (Z.div_small (eval l / unit_of op2 shift)) by (split; [apply Z.div_pos; lia|auto]).
    cbn [Z.eqb]. destruct (Nat.eqb_spec shift 0) as [E|E]; cbn [andb].
    - rewrite (proj2 (Z.leb_gt _ _)) by auto. cbn [Z.min Z.eqb]. change (Z.min 0 (B - 1) =? 0) with true. cbv iota.
      repeat split; auto; apply Gl.
    - change (Z.min 0 (B - 1) =? 0) with true. cbv iota. repeat split; auto; try apply Gl. }
  destruct (Nat.eq_dec shift 0) as [E|E]; [|apply Stop; auto; lia]. subst shift.
  destruct (Z.lt_ge_cases (eval left) (eval op2)) as [C|C]; [apply Stop; auto|].
  assert (X0 : 0 <= eval left) by (apply eval_nonneg, G).
  assert (Dg : div_digit left (repeat 0 0 ++ op2) (0 + length op2) (Nat.eqb 0 0) = 1).
  { rewrite (div_digit_spec a op2 0 left qr D G). cbv zeta.
    rewrite (Z.div_small (eval left / unit_of op2 0)) by (split; [apply Z.div_pos; lia|auto]).
    cbn [Nat.eqb andb Z.eqb]. rewrite (proj2 (Z.leb_le _ _)) by auto. reflexivity. }
  apply inner_step; auto; rewrite Dg; [lia|].
  intros l' r' G' E'. rewrite Bp_0 in *.
  assert (X1 : 0 <= eval l') by (apply eval_nonneg, G').
  set (u := unit_of op2 0) in *. set (DD := dsor op2 0) in *.
  assert (H : eval left < DD * u).
  { pose proof (Z.div_mod (eval left) u ltac:(lia)). pose proof (Z.mod_pos_bound (eval left) u ltac:(lia)). nia. }
  assert (Hle : eval l' < eval op2).
  { destruct T3 as [T3|T3].
    - rewrite T3 in H. nia.
    - destruct (T6 T3) as (_ & U1 & U2). rewrite T3, U1 in H. lia. }
  apply Stop; auto.
  apply Z.div_lt_upper_bound; lia.
Qed.

Lemma digit_nz a op2 shift left qr : divisor op2 -> good a op2 shift left qr ->
  dsor op2 shift <= eval left / unit_of op2 shift ->
  let q := eval left / unit_of op2 shift / dsor op2 shift in
  1 <= q /\ div_digit left (repeat 0 shift ++ op2) (shift + length op2) (Nat.eqb shift 0) = Z.min q (B - 1).
Proof.
  intros D G H q. destruct (dsor_spec op2 shift D) as (T1 & T2 & _).
  assert (1 <= q) by (apply Z.div_le_lower_bound; lia). split; auto.
  rewrite (div_digit_spec a op2 shift left qr D G). cbv zeta. fold q.
  rewrite (proj2 (Z.eqb_neq q 0)) by lia. reflexivity.
Qed.

(** the new leading part after subtracting [n] times the divisor *)
Lemma lead_drop op2 shift X X' n : divisor op2 -> 0 < n ->
  X' = X - n * (Bp shift * eval op2) ->
  X' / unit_of op2 shift <= X / unit_of op2 shift - n * dtop op2.
Proof.
  intros D Hn ->. destruct (dsor_spec op2 shift D) as (T1 & T2 & T3 & T4 & T5 & T6).
  set (u := unit_of op2 shift) in *.
  assert (X - n * (Bp shift * eval op2) <= X + (- (n * dtop op2)) * u) by nia.
  transitivity ((X + (- (n * dtop op2)) * u) / u); [apply Z.div_le_mono; lia|].
  rewrite Z.div_add by lia. lia.
Qed.

Lemma phase1a f a op2 shift left qr : divisor op2 -> step_ok a (eval op2) (length op2) ->
  good a op2 shift left qr -> eval left / unit_of op2 shift <= dsor op2 shift ->
  inner_ok (S (S (S f))) a op2 shift left qr.
Proof.
  intros D SO G Hv. destruct (dsor_spec op2 shift D) as (T1 & T2 & T3 & T4 & T5 & T6).
  destruct (Z.eq_dec (eval left / unit_of op2 shift) (dsor op2 shift)) as [E|E]; [|apply phase0; auto; lia].
  destruct (digit_nz a op2 shift left qr D G ltac:(lia)) as (H1 & H2). cbv zeta in *.
  rewrite E, Z.div_same in H2 by lia. change (Z.min 1 (B - 1)) with 1 in H2.
  apply inner_step; auto; rewrite H2; [lia|]. intros l' r' G' E'. apply phase0; auto.
  pose proof (lead_drop op2 shift _ _ 1 D ltac:(lia) E'). lia.
Qed.

Lemma phase1b f a op2 shift left qr : divisor op2 -> step_ok a (eval op2) (length op2) ->
  good a op2 shift left qr -> eval left / unit_of op2 shift < 2 * dsor op2 shift ->
  inner_ok (S (S (S (S f)))) a op2 shift left qr.
Proof.
  intros D SO G Hv. destruct (dsor_spec op2 shift D) as (T1 & T2 & T3 & T4 & T5 & T6).
  destruct (Z.lt_ge_cases (eval left / unit_of op2 shift) (dsor op2 shift)) as [E|E]; [apply phase0; auto|].
  destruct (digit_nz a op2 shift left qr D G ltac:(lia)) as (H1 & H2). cbv zeta in *.
  replace (eval left / unit_of op2 shift / dsor op2 shift) with 1 in H2.
  2:{ apply (Z.div_unique_pos _ _ 1 (eval left / unit_of op2 shift - dsor op2 shift)); lia. }
  change (Z.min 1 (B - 1)) with 1 in H2.
  apply inner_step; auto; rewrite H2; [lia|]. intros l' r' G' E'. apply phase1a; auto.
  pose proof (lead_drop op2 shift _ _ 1 D ltac:(lia) E'). lia.
Qed.

Lemma phase2 k : forall f a op2 shift left qr, divisor op2 -> step_ok a (eval op2) (length op2) ->
  good a op2 shift left qr -> eval left / unit_of op2 shift < (2 ^ Z.of_nat k + 1) * dsor op2 shift ->
  eval left / unit_of op2 shift < B * dsor op2 shift ->
  inner_ok (k + S (S (S (S f)))) a op2 shift left qr.
Proof.
  induction k as [|k IH]; intros f a op2 shift left qr D SO G Hv HB.
  - apply phase1b; auto. 
  - destruct (dsor_spec op2 shift D) as (T1 & T2 & T3 & T4 & T5 & T6).
    destruct (Z.lt_ge_cases (eval left / unit_of op2 shift) (dsor op2 shift)) as [E|E].
    { change (S k + S (S (S (S f))))%nat with (S (k + S (S (S (S f)))))%nat.
      replace (k + S (S (S (S f))))%nat with (S (k + S (S (S f))))%nat by lia. apply phase0; auto. }
    destruct (digit_nz a op2 shift left qr D G E) as (H1 & H2). cbv zeta in *.
    set (v := eval left / unit_of op2 shift) in *. set (DD := dsor op2 shift) in *. set (c := dtop op2) in *.
    set (n := v / DD) in *.
    assert (Hn : n < B) by (apply Z.div_lt_upper_bound; lia).
    rewrite Z.min_l in H2 by lia.
    pose proof (Z.div_mod v DD ltac:(lia)) as DM. pose proof (Z.mod_pos_bound v DD ltac:(lia)) as MB. fold n in DM.
    assert (Hn2 : n <= 2 ^ Z.of_nat (S k)).
    { assert (n < 2 ^ Z.of_nat (S k) + 1) by (apply Z.div_lt_upper_bound; lia). lia. }
    rewrite Nat2Z.inj_succ, Z.pow_succ_r in Hn2 by lia. assert (P : 0 < 2 ^ Z.of_nat k) by (apply Z.pow_pos_nonneg; lia).
    change (S k + S (S (S (S f))))%nat with (S (k + S (S (S (S f)))))%nat.
    apply inner_step; auto; rewrite H2; [lia|]. intros l' r' G' E'.
    pose proof (lead_drop op2 shift _ _ n D ltac:(lia) E') as LD. fold v c in LD.
    set (v' := eval l' / unit_of op2 shift) in *.
    apply IH; auto; fold v' DD.
    + destruct T3 as [T3|T3].
      * assert (v' <= n + c) by (rewrite T3 in DM, MB; nia). rewrite T3. nia.
      * assert (v' < DD) by (rewrite T3 in DM, MB; rewrite T3; nia). nia.
    + nia.
Qed.

Lemma phase3 f a op2 shift left qr : divisor op2 -> step_ok a (eval op2) (length op2) ->
  good a op2 shift left qr ->
  eval left / unit_of op2 shift < B * (dtop op2 + 1) ->
  (37 <= f)%nat -> inner_ok f a op2 shift left qr.
Proof.
  intros D SO G Hv Hf. destruct (dsor_spec op2 shift D) as (T1 & T2 & T3 & T4 & T5 & T6).
  destruct (Z.lt_ge_cases (eval left / unit_of op2 shift) (B * dsor op2 shift)) as [E|E].
  - replace f with (32 + S (S (S (S (f - 36)))))%nat by lia. apply phase2; auto.
    change (2 ^ Z.of_nat 32) with B. lia.
  - assert (T3' : dsor op2 shift = dtop op2) by (destruct T3 as [T3|T3]; auto; rewrite T3 in E; lia).
    assert (E' : dsor op2 shift <= eval left / unit_of op2 shift) by (rewrite B_val in E; lia).
    destruct (digit_nz a op2 shift left qr D G E') as (H1 & H2). cbv zeta in *.
    set (v := eval left / unit_of op2 shift) in *. set (DD := dsor op2 shift) in *.
    rewrite Z.min_r in H2.
    2:{ assert (B <= v / DD) by (apply Z.div_le_lower_bound; lia). lia. }
    replace f with (S (31 + S (S (S (S (f - 36))))))%nat by lia.
    apply inner_step; auto; rewrite H2; [rewrite B_val; lia|]. intros l' r' G' E2.
    pose proof (lead_drop op2 shift _ _ (B - 1) D ltac:(rewrite B_val; lia) E2) as LD. fold v in LD. 
    apply phase2; auto; fold DD.
    + change (2 ^ Z.of_nat 31) with 2147483648. rewrite B_val in *. rewrite T3' in *. lia.
    + rewrite B_val in *. lia.
Qed.

Lemma div_outer_spec fuel a op2 : divisor op2 -> step_ok a (eval op2) (length op2) -> (37 <= fuel)%nat ->
  forall shift left qr, good a op2 shift left qr ->
  eval left / unit_of op2 shift < B * (dtop op2 + 1) ->
  exists left' qr', div_outer shift left op2 qr fuel = Some (left', qr') /\
    limbs left' /\ last left' 1 <> 0 /\ limbs qr' /\ last qr' 1 <> 0 /\
    eval left' + eval qr' * eval op2 = eval left + eval qr * eval op2 /\ eval left' < eval op2.
Proof.
  intros D SO Hf. induction shift as [|s IH]; intros left qr G Hv.
  - destruct (phase3 fuel a op2 0 left qr D SO G Hv Hf) as (l' & q' & E & G' & S' & B1 & B2).
    exists l', q'. cbn [div_outer]. rewrite E. destruct G' as (g1 & g2 & g3 & g4 & _). repeat split; auto.
  - destruct (phase3 fuel a op2 (S s) left qr D SO G Hv Hf) as (l1 & q1 & E & G' & S' & B1 & B2).
    cbn [div_outer]. rewrite E.
    destruct (dsor_spec op2 (S s) D) as (T1 & T2 & T3 & T4 & T5 & T6).
    assert (T3' : dsor op2 (S s) = dtop op2 + 1).
    { destruct T3 as [|T3]; auto. destruct (T6 T3) as (? & _). discriminate. }
    rewrite T3' in B1. pose proof (divisor_len _ D) as Hl.
    assert (EU : unit_of op2 (S s) = B * unit_of op2 s).
    { unfold unit_of. rewrite <- Bp_S. f_equal. lia. }
    assert (Pu : 0 < unit_of op2 s) by apply Bp_pos.
    assert (X0 : 0 <= eval l1) by (apply eval_nonneg, G').
    assert (XB : eval l1 < (dtop op2 + 1) * (B * unit_of op2 s)).
    { rewrite <- EU. pose proof (Z.div_mod (eval l1) (unit_of op2 (S s)) ltac:(lia)).
      pose proof (Z.mod_pos_bound (eval l1) (unit_of op2 (S s)) ltac:(lia)). nia. }
    destruct (dtop_spec op2 D) as (K1 & _).
    destruct (IH l1 q1) as (l' & q' & E2 & r1 & r2 & r3 & r4 & r5 & r6).
    + destruct G' as (g1 & g2 & g3 & g4 & g5 & g6). repeat split; auto.
      replace (Bp (s + length op2 + 1)) with (B * (B * unit_of op2 s)).
      * rewrite B_val in *. nia.
      * unfold unit_of. rewrite <- !Bp_S. f_equal. lia.
    + apply Z.div_lt_upper_bound; [lia|]. lia.
    + exists l', q'. repeat split; auto. lia.
Qed.

Theorem div_spec b1 b2 : normal b1 -> normal b2 -> value b2 <> 0 ->
  step_ok (Z.abs (value b1)) (Z.abs (value b2)) (length (mag b2)) ->
  exists q r, div b1 b2 = DRet q r /\ normal q /\ normal r /\
    value q = Z.quot (value b1) (value b2) /\ value r = Z.rem (value b1) (value b2).
Proof.
  intros N1 N2 Hz SO. unfold div.
  assert (V1 := value_abs b1 N1). assert (V2 := value_abs b2 N2).
  assert (P2 : positive b2 =? 0 = false).
  { destruct (positive_spec b2 N2) as [(H & -> & _)|[(H & -> & _)|(H & -> & _)]]; lia. }
  rewrite P2.
  destruct (Z.eqb_spec (positive b1) 0) as [E1|E1].
  { assert (value b1 = 0) by (destruct (positive_spec b1 N1) as [(H & E & _)|[(H & E & _)|(H & E & _)]]; lia).
    exists bi0, bi0. rewrite H, Z.quot_0_l, Z.rem_0_l by auto. repeat split; try apply normal_bi0; auto. }
  assert (Hv1 : value b1 <> 0) by (destruct (positive_spec b1 N1) as [(H & E & _)|[(H & E & _)|(H & E & _)]]; lia).
  destruct (is_1 b2) eqn:I1.
  { apply is_1_spec in I1; auto. eexists _, bi0. split; [reflexivity|].
    rewrite neg_pos by auto.
    destruct (Z.ltb_spec (value b2) 0).
    - replace (value b2) with (- (1)) by lia. rewrite Z.quot_opp_r, Z.rem_opp_r, Z.quot_1_r, Z.rem_1_r by lia.
      repeat split; try apply normal_bi0; try (apply normal_negate; auto). rewrite value_negate; auto.
    - replace (value b2) with 1 by lia. rewrite Z.quot_1_r, Z.rem_1_r.
      repeat split; try apply normal_bi0; try apply N1. }
  assert (D : divisor (mag b2)).
  { repeat split; try apply N2.
    - intros E. rewrite E in V2. cbn in V2. lia.
    - rewrite V2. assert (Z.abs (value b2) <> 1); [|lia]. intros E.
      assert (is_1 b2 = true) by (apply is_1_spec; auto; lia). congruence. }
  pose proof (divisor_len _ D) as Hl.
  assert (R : exists lft qr, (if (length (mag b1) <? length (mag b2))%nat then Some (mag b1, [])
      else div_outer (length (mag b1) - length (mag b2)) (mag b1) (mag b2) [] div_fuel) = Some (lft, qr) /\
    limbs lft /\ last lft 1 <> 0 /\ limbs qr /\ last qr 1 <> 0 /\
    eval lft + eval qr * eval (mag b2) = eval (mag b1) /\ eval lft < eval (mag b2)).
  { destruct (Nat.ltb_spec (length (mag b1)) (length (mag b2))) as [C|C].
    - exists (mag b1), []. repeat split; try apply N1; try constructor; try (cbn; lia).
      pose proof (mag_lt b1 N1) as M1. rewrite <- V1 in M1.
      assert (Nn : mag b2 <> []) by apply D.
      pose proof (nrm_low (mag b2) (proj1 N2) Nn (proj1 (proj2 N2))) as Lo.
      assert (Bp (length (mag b1)) <= B ^ (Z.of_nat (length (mag b2)) - 1)).
      { unfold Bp. change 4294967296 with B. apply Z.pow_le_mono_r; [reflexivity|lia]. }
      lia.
    - destruct (div_outer_spec div_fuel (Z.abs (value b1)) (mag b2) D) with
        (shift := (length (mag b1) - length (mag b2))%nat) (left := mag b1) (qr := @nil Z)
        as (l' & q' & E & r1 & r2 & r3 & r4 & r5 & r6).
      + rewrite V2. exact SO.
      + unfold div_fuel. lia.
      + pose proof (mag_lt b1 N1) as M1. rewrite <- V1 in M1.
        repeat split; try apply N1; try constructor; try (cbn; lia); try lia.
        assert (Bp (length (mag b1)) <= Bp (length (mag b1) - length (mag b2) + length (mag b2) + 1)) by (apply Bp_le; lia).
        lia.
      + pose proof (mag_lt b1 N1) as M1. rewrite <- V1 in M1. destruct (dtop_spec (mag b2) D) as (K1 & _).
        apply Z.div_lt_upper_bound; [apply Bp_pos|]. unfold unit_of.
        assert (Bp (length (mag b1)) = B * Bp (length (mag b1) - length (mag b2) + length (mag b2) - 1)).
        { rewrite <- Bp_S. f_equal. lia. }
        pose proof (Bp_pos (length (mag b1) - length (mag b2) + length (mag b2) - 1)).
        rewrite H in M1. rewrite B_val in *. nia.
      + exists l', q'. repeat split; auto. cbn [eval] in r5. lia. }
  destruct R as (lft & qr & -> & R1 & R2 & R3 & R4 & R5 & R6).
  eexists _, _. split; [reflexivity|].
  pose proof (eval_nonneg lft R1) as X0.
  split; [destruct (positive b1 =? positive b2); apply normal_signed; auto|].
  split; [destruct (positive b1 <? 0); apply normal_signed; auto|].
  rewrite neg_pos by auto.
  assert (SS : (positive b1 =? positive b2) = Bool.eqb (value b1 <? 0) (value b2 <? 0)).
  { destruct (positive_spec b1 N1) as [(H & -> & _)|[(H & -> & _)|(H & -> & _)]]; try lia;
    destruct (positive_spec b2 N2) as [(H' & -> & _)|[(H' & -> & _)|(H' & -> & _)]]; try lia; cbn;
    repeat match goal with |- context [?x <? ?y] => destruct (Z.ltb_spec x y); try lia end; reflexivity. }
  rewrite SS. rewrite V1, V2 in *.
  assert (U : forall vq vr, value b1 = value b2 * vq + vr ->
     Zquot.Remainder (value b1) (value b2) vr -> vq = Z.quot (value b1) (value b2) /\ vr = Z.rem (value b1) (value b2)).
  { intros vq vr E Rm. apply Zquot_mod_unique_full; auto. }
  apply U.
  - destruct (Z.ltb_spec (value b1) 0); destruct (Z.ltb_spec (value b2) 0); cbn [Bool.eqb]; rewrite !value_signed.
    + rewrite !Z.abs_neq in R5 by lia. nia.
    + rewrite (Z.abs_neq (value b1)), (Z.abs_eq (value b2)) in R5 by lia. nia.
    + rewrite (Z.abs_eq (value b1)), (Z.abs_neq (value b2)) in R5 by lia. nia.
    + rewrite !Z.abs_eq in R5 by lia. nia.
  - unfold Zquot.Remainder. destruct (Z.ltb_spec (value b1) 0); rewrite value_signed; lia.
Qed.

Theorem div_zero b1 b2 : normal b2 -> value b2 = 0 -> div b1 b2 = DThrow.
Proof.
  intros N2 Hz. unfold div. destruct (positive_spec b2 N2) as [(H & E & _)|[(H & E & _)|(H & E & _)]]; try lia.
  rewrite E. reflexivity.
Qed.

Lemma step_ok_two a d m : 0 <= a < 18446744073709551616 -> 0 <= d -> step_ok a d m.
Proof.
  intros Ha Hd X s n HX _ Hn Hle. apply borrow_chain_two; [|lia]. split; auto.
  pose proof (Bp_pos s). nia.
Qed.

Lemma step_ok_limb a d : 0 <= d -> step_ok a d 1.
Proof.
  intros Hd X s n HX Hb Hn Hle i j Hij Hj Hi. 
  replace (s + 1 + 1)%nat with (S (S s)) in Hb by lia.
  destruct (Nat.le_gt_cases i s) as [C|C].
  - exfalso. unfold borrow in Hi.
    assert (E : (n * (Bp s * d)) mod Bp i = 0).
    { replace s with (i + (s - i))%nat by lia. rewrite Bp_add.
      replace (n * (Bp i * Bp (s - i) * d)) with (n * Bp (s - i) * d * Bp i) by ring. apply Z.mod_mul.
      pose proof (Bp_pos i). lia. }
    rewrite E in Hi. pose proof (Z.mod_pos_bound X (Bp i) (Bp_pos i)). lia.
  - destruct (Nat.eq_dec i j) as [->|]; auto. exfalso.
    assert (Bp (S (S s)) <= Bp j) by (apply Bp_le; lia). lia.
Qed.

(** Whatever the subtractions do, the results are in normal form. *)
Lemma self_sub_normal l1 l2 : limbs l1 -> limbs l2 -> (length l2 <= length l1)%nat ->
  limbs (self_sub_greater l1 l2) /\ last (self_sub_greater l1 l2) 1 <> 0.
Proof.
  intros L1 L2 Len. unfold self_sub_greater. rewrite self_sub_eq by (auto; lia).
  destruct (sub_loop_limbs l1 l2 0 L1 L2 Len ltac:(lia)) as (F & _).
  split; [apply limbs_strip; auto|]. apply strip_last, strip_strip.
Qed.

Ltac Zify.zify_post_hook ::= idtac.
Lemma div_digit_le op2 shift left : divisor op2 -> limbs left -> last left 1 <> 0 ->
  let n := div_digit left (repeat 0 shift ++ op2) (shift + length op2) (Nat.eqb shift 0) in
  n <> 0 -> 0 < n < B /\ n * (Bp shift * eval op2) <= eval left.
Proof.
  intros D L A n N0. pose proof (divisor_len _ D) as Hl.
  destruct (dsor_spec op2 shift D) as (T1 & T2 & T3 & T4 & T5 & T6).
  unfold n, div_digit in *. clear n. rewrite cmpl_nth in * by auto. fold (dsor op2 shift) in *.
  set (size := (shift + length op2)%nat) in *.
  assert (V1 : nth (size - 1) left 0 + (if (size <? length left)%nat then nth size left 0 * B else 0)
     = (eval left / unit_of op2 shift) mod (B * B)).
  { unfold unit_of. fold size.
    replace (if (size <? length left)%nat then nth size left 0 * B else 0) with (nth size left 0 * B).
    2:{ destruct (Nat.ltb_spec size (length left)); auto. rewrite nth_overflow by lia. lia. }
    rewrite <- !eval_nth by auto.
    replace (Bp size) with (Bp (S (size - 1))) by (f_equal; lia). rewrite <- div_Bp_S.
    rewrite Z.rem_mul_r by (rewrite B_val; lia). ring. }
  pose proof (eval_nonneg left L) as X0. set (X := eval left) in *. set (u := unit_of op2 shift) in *.
  set (DD := dsor op2 shift) in *. rewrite V1 in *.
  assert (Hm : 0 <= (X / u) mod (B * B) <= X / u).
  { assert (0 <= X / u) by (apply Z.div_pos; lia). split; [apply Z.mod_pos_bound; reflexivity|apply Z.mod_le; auto; reflexivity]. }
  set (v := (X / u) mod (B * B)) in *.
  assert (HX : v / DD * (DD * u) <= X).
  { pose proof (Z.mul_div_le v DD ltac:(lia)). pose proof (Z.mul_div_le X u ltac:(lia)). nia. }
  assert (P0 : 0 < Bp shift * eval op2) by (pose proof (Bp_pos shift); destruct D as (_ & _ & _ & ?); nia).
  cbv zeta in *. assert (Q0 : 0 <= v / DD) by (apply Z.div_pos; lia).
  destruct (Z.eqb_spec (v / DD) 0) as [E|E].
  - destruct (Nat.eqb_spec shift 0) as [E1|E1]; [|change (B - 1 <? 0) with false in N0; cbv iota in N0; lia].
    subst shift. cbn [repeat app] in *.
    rewrite compare_spec in * by (apply normal_signed; auto; apply D). rewrite !value_signed in *.
    unfold cmpZ in *. fold X in N0 |- *.
    destruct (Z.eqb_spec X (eval op2)); [change (B - 1 <? 1) with false; cbv iota; rewrite Bp_0, B_val; lia|].
    destruct (Z.ltb_spec X (eval op2)).
    + change (B - 1 <? 0) with false in N0. cbv iota in N0. lia.
    + change (B - 1 <? 1) with false. cbv iota. rewrite Bp_0, B_val. lia.
  - destruct (Z.ltb_spec (B - 1) (v / DD)).
    + rewrite B_val in *. split; [lia|]. nia.
    + rewrite B_val in *. split; [lia|]. nia.
Qed.
Ltac Zify.zify_post_hook ::= Z.div_mod_to_equations.

Lemma div_inner_normal fuel op2 shift : divisor op2 -> forall left qr l' q',
  limbs left -> last left 1 <> 0 -> limbs qr -> last qr 1 <> 0 ->
  div_inner fuel left (repeat 0 shift ++ op2) qr (shift + length op2) shift (Nat.eqb shift 0) = Some (l', q') ->
  limbs l' /\ last l' 1 <> 0 /\ limbs q' /\ last q' 1 <> 0.
Proof.
  intros D. induction fuel as [|f IH]; intros left qr l' q' L A Lq Aq; cbn [div_inner]; [discriminate|].
  cbv zeta. set (n := div_digit _ _ _ _). destruct (Z.eqb_spec n 0) as [E|E].
  - injection 1 as -> ->. auto.
  - destruct (div_digit_le op2 shift left D L A E) as (Hn & Hle). fold n in Hn, Hle.
    destruct (cmpl_spec op2 shift D) as (Nc & Ec & Lc & Ac & Nn).
    destruct (mul_int_spec (signed false (repeat 0 shift ++ op2)) n 0 Nc ltac:(lia)) as (Nm & Em & _).
    { cbn [mag signed]. exact Nn. }
    cbn [mag signed] in Em. rewrite Ec, Bp_0, Z.mul_1_r in Em.
    set (t := mag (mul_int (signed false (repeat 0 shift ++ op2)) n 0)) in *.
    assert (Len : (length t <= length left)%nat).
    { destruct (Nat.le_gt_cases (length t) (length left)) as [|H]; auto. exfalso.
      assert (N2 : t <> []) by (intros E2; rewrite E2 in H; cbn in H; lia).
      pose proof (nrm_low t (proj1 Nm) N2 (proj1 (proj2 Nm))) as Lo. pose proof (eval_bound left L) as Hi.
      assert (B ^ Z.of_nat (length left) <= B ^ (Z.of_nat (length t) - 1)) by (apply Z.pow_le_mono_r; [reflexivity|lia]).
      lia. }
    destruct (self_sub_normal left t L (proj1 Nm) Len) as (L' & A').
    assert (Ln : limbs (repeat 0 shift ++ [n])).
    { apply limbs_app; [apply limbs_zeros|]. constructor; [rewrite B_val in Hn; lia|constructor]. }
    apply IH; auto.
    + apply add_loop_spec; auto; try (rewrite B_val; lia); try lia.
    + apply add_loop_last; auto; try lia. rewrite last_last. lia.
Qed.

Theorem div_normal b1 b2 q r : normal b1 -> normal b2 -> div b1 b2 = DRet q r -> normal q /\ normal r.
Proof.
  intros N1 N2. unfold div.
  destruct (Z.eqb_spec (positive b2) 0) as [P2|P2]; [discriminate|].
  destruct (Z.eqb_spec (positive b1) 0) as [E1|E1].
  { injection 1 as <- <-. split; apply normal_bi0. }
  destruct (is_1 b2) eqn:I1.
  { injection 1 as <- <-. split; [|apply normal_bi0]. destruct (positive b2 <? 0); auto. apply normal_negate; auto. }
  assert (V2 := value_abs b2 N2).
  assert (Hz : value b2 <> 0) by (destruct (positive_spec b2 N2) as [(H & E & _)|[(H & E & _)|(H & E & _)]]; lia).
  assert (D : divisor (mag b2)).
  { repeat split; try apply N2.
    - intros E. rewrite E in V2. cbn in V2. lia.
    - rewrite V2. assert (Z.abs (value b2) <> 1); [|lia]. intros E.
      assert (is_1 b2 = true) by (apply is_1_spec; auto; lia). congruence. }
  assert (O : forall fuel shift left qr l' q', limbs left -> last left 1 <> 0 -> limbs qr -> last qr 1 <> 0 ->
    div_outer shift left (mag b2) qr fuel = Some (l', q') ->
    limbs l' /\ last l' 1 <> 0 /\ limbs q' /\ last q' 1 <> 0).
  { intros fuel. induction shift as [|s IH]; intros left qr l' q' L A Lq Aq; cbn [div_outer].
    - destruct (div_inner _ _ _ _ _ _ _) as [[l1 q1]|] eqn:E; [|discriminate]. injection 1 as <- <-.
      apply (div_inner_normal fuel (mag b2) 0 D) in E; auto.
    - destruct (div_inner _ _ _ _ _ _ _) as [[l1 q1]|] eqn:E; [|discriminate].
      apply (div_inner_normal fuel (mag b2) (S s) D) in E; auto. destruct E as (? & ? & ? & ?). apply IH; auto. }
  destruct (if (length (mag b1) <? length (mag b2))%nat then _ else _) as [[l' q']|] eqn:E; [|discriminate].
  assert (K : limbs l' /\ last l' 1 <> 0 /\ limbs q' /\ last q' 1 <> 0).
  { destruct (length (mag b1) <? length (mag b2))%nat.
    - injection E as <- <-. repeat split; try apply N1; try constructor. cbn. lia.
    - apply O in E; auto; try apply N1; [constructor|cbn; lia]. }
  destruct K as (K1 & K2 & K3 & K4). injection 1 as <- <-.
  split; [destruct (positive b1 =? positive b2)|destruct (positive b1 <? 0)]; apply normal_signed; auto.
Qed.
