(** Multiplication and exponentiation of big integers. *)
From Coq Require Import ZArith List Bool Lia ZifyBool.
Import ListNotations.
From Verif Require Import BigModel BigSpec BigProofs BigSubProofs.
Open Scope Z_scope.
Ltac Zify.zify_post_hook ::= Z.div_mod_to_equations.

Lemma mul_step n x left : 0 <= n < B -> 0 <= x < B -> 0 <= left < B -> 0 <= (n * x + left) / B < B.
Proof.
  intros Hn Hx Hl. split; [apply Z.div_pos; [nia|reflexivity]|].
  apply Z.div_lt_upper_bound; [reflexivity|]. rewrite B_val in *. nia.
Qed.

Lemma mul_loop_spec l : forall n left, limbs l -> 0 <= n < B -> 0 <= left < B ->
  eval (mul_loop l n left) = n * eval l + left /\ limbs (mul_loop l n left).
Proof.
  induction l as [|x l IH]; intros n left L Hn Hl; cbn [mul_loop eval].
  - destruct (Z.eqb_spec left 0); cbn [eval]; (split; [lia|]); repeat constructor; rewrite B_val in *; lia.
  - inversion L; subst. pose proof (mul_step n x left Hn H1 Hl) as Hs.
    destruct (IH n ((n * x + left) / B) H2 Hn Hs) as (E & F).
    pose proof (Z.div_mod (n * x + left) B ltac:(discriminate)) as D.
    pose proof (Z.mod_pos_bound (n * x + left) B ltac:(reflexivity)) as M.
    split; [|constructor; [rewrite B_val in *; lia|auto]].
    rewrite E. change 4294967296 with B.
    transitivity ((B * ((n * x + left) / B) + (n * x + left) mod B) + B * (n * eval l)); [ring|].
    rewrite <- D. ring.
Qed.

Lemma mul_loop_last l : forall n left, limbs l -> last l 1 <> 0 -> 1 <= n < B -> 0 <= left < B ->
  last (mul_loop l n left) 1 <> 0.
Proof.
  induction l as [|x l IH]; intros n left L A Hn Hl; cbn [mul_loop].
  - destruct (Z.eqb_spec left 0); cbn [last]; lia.
  - inversion L; subst. pose proof (mul_step n x left ltac:(lia) H1 Hl) as Hs.
    destruct l as [|y t].
    + cbn in A. cbn [mul_loop].
      pose proof (Z.div_mod (n * x + left) B ltac:(discriminate)) as D.
      destruct (Z.eqb_spec ((n * x + left) / B) 0) as [E|E]; cbn [last]; [|lia].
      rewrite E in D. nia.
    + rewrite last_cons_nn by (cbn [mul_loop]; discriminate). apply IH; auto.
Qed.

Lemma last_app_nn (l1 l2 : list Z) d : l2 <> [] -> last (l1 ++ l2) d = last l2 d.
Proof.
  intros N. induction l1 as [|x l1 IH]; [reflexivity|]. cbn [app].
  rewrite last_cons_nn; [exact IH|]. intros E. apply app_eq_nil in E. tauto.
Qed.

Lemma mul_int_spec src n shift : normal src -> 0 <= n < B -> mag src <> [] ->
  normal (mul_int src n shift) /\
  eval (mag (mul_int src n shift)) = n * eval (mag src) * Bp shift /\
  neg (mul_int src n shift) = (neg src && (n =? 1) && Nat.eqb shift 0).
Proof.
  intros N Hn Ne. unfold mul_int. destruct (Z.eqb_spec n 0) as [->|N0].
  - split; [apply normal_bi0|]. split; [cbn; lia|]. cbn. rewrite andb_false_r. reflexivity.
  - destruct (Z.eqb_spec n 1) as [->|N1]; destruct (Nat.eqb_spec shift 0) as [->|Ns]; cbn [andb].
    + split; [auto|]. split; [rewrite Bp_0; lia|]. rewrite !andb_true_r. reflexivity.
    + destruct N as (L & A & N). destruct (mul_loop_spec (mag src) 1 0 L ltac:(lia) ltac:(rewrite B_val; lia)) as (E & F).
      split; [|split].
      * apply normal_signed; [apply limbs_app; auto; apply limbs_zeros|].
        rewrite last_app_nn; [apply mul_loop_last; auto; rewrite B_val; lia|].
        destruct (mag src); [congruence|discriminate].
      * cbn [mag signed]. rewrite eval_app, eval_zeros, repeat_length, E. unfold Bp. change 4294967296 with B. ring.
      * rewrite !andb_false_r. unfold signed; cbn [neg]. destruct (repeat 0 shift ++ _); reflexivity.
    + destruct N as (L & A & N). destruct (mul_loop_spec (mag src) n 0 L ltac:(lia) ltac:(rewrite B_val; lia)) as (E & F).
      split; [|split].
      * apply normal_signed; [cbn [repeat app]; auto|].
        cbn [repeat app]. apply mul_loop_last; auto; pose proof B_val; lia.
      * cbn [mag signed repeat app]. rewrite E, Bp_0. ring.
      * rewrite !andb_false_r. unfold signed; cbn [neg]. destruct (repeat 0 0 ++ _); reflexivity.
    + destruct N as (L & A & N). destruct (mul_loop_spec (mag src) n 0 L ltac:(lia) ltac:(rewrite B_val; lia)) as (E & F).
      split; [|split].
      * apply normal_signed; [apply limbs_app; auto; apply limbs_zeros|].
        rewrite last_app_nn; [apply mul_loop_last; auto; pose proof B_val; lia|].
        destruct (mag src); [congruence|discriminate].
      * cbn [mag signed]. rewrite eval_app, eval_zeros, repeat_length, E. unfold Bp. change 4294967296 with B. ring.
      * rewrite !andb_false_r. unfold signed; cbn [neg]. destruct (repeat 0 shift ++ _); reflexivity.
Qed.

Lemma self_add_spec a b : normal a -> normal b ->
  normal (self_add a b) /\ eval (mag (self_add a b)) = eval (mag a) + eval (mag b) /\
  neg (self_add a b) = neg a.
Proof.
  intros (La & Aa & Na) (Lb & Ab & Nb). unfold self_add.
  destruct (add_loop_spec (mag a) (mag b) 0 La Lb ltac:(rewrite B_val; lia) ltac:(lia)) as (E & F).
  split; [apply normal_signed; auto; apply add_loop_last; auto; lia|].
  split; [cbn [mag signed]; lia|]. unfold signed. cbn [neg].
  destruct (add_loop (mag a) (mag b) 0) as [|z u] eqn:G; [|reflexivity].
  symmetry. apply Na. cbn [eval] in E.
  apply eval_zero; auto. pose proof (eval_nonneg _ La). pose proof (eval_nonneg _ Lb). lia.
Qed.

Lemma mul_outer_spec src l2 : forall i sum, normal src -> mag src <> [] -> limbs l2 -> normal sum ->
  (0 < i)%nat ->
  normal (mul_outer src l2 i sum) /\
  eval (mag (mul_outer src l2 i sum)) = eval (mag sum) + eval (mag src) * Bp i * eval l2 /\
  neg (mul_outer src l2 i sum) = neg sum.
Proof.
  induction l2 as [|n l2 IH]; intros i sum Ns Ne L Nm Hi; cbn [mul_outer eval].
  - split; auto. split; [lia|auto].
  - inversion L; subst. destruct i as [|i]; [lia|].
    destruct (mul_int_spec src n (S i) Ns H1 Ne) as (N1 & E1 & G1).
    destruct (self_add_spec sum (mul_int src n (S i)) Nm N1) as (N2 & E2 & G2).
    destruct (IH (S (S i)) (self_add sum (mul_int src n (S i))) Ns Ne H2 N2 ltac:(lia)) as (N3 & E3 & G3).
    split; [exact N3|]. split; [|congruence].
    rewrite E3, E2, E1, (Bp_S (S i)). change 4294967296 with B. ring.
Qed.


Lemma is_1_spec b : normal b -> is_1 b = true <-> Z.abs (value b) = 1.
Proof.
  intros N. rewrite <- value_abs by auto. destruct N as (L & A & _). unfold is_1.
  destruct (mag b) as [|x [|y t]].
  - cbn. split; [discriminate|lia].
  - cbn [eval]. rewrite Z.eqb_eq. lia.
  - split; [discriminate|]. intros E. exfalso.
    pose proof (nrm_low (x :: y :: t) L ltac:(discriminate) A) as P. rewrite E in P.
    cbn [length] in P. replace (Z.of_nat (S (S (length t))) - 1) with (Z.succ (Z.of_nat (length t))) in P by lia.
    rewrite Z.pow_succ_r in P by lia. pose proof (Bpow_pos (length t)). rewrite B_val in *. lia.
Qed.

Theorem mul_spec a b : normal a -> normal b ->
  normal (mul a b) /\
  (mul_sign_fault (value a) (value b) -> value (mul a b) = - (value a * value b)) /\
  (~ mul_sign_fault (value a) (value b) -> value (mul a b) = value a * value b).
Proof.
  intros Na Nb. assert (Va := value_abs a Na). assert (Vb := value_abs b Nb). unfold mul.
  assert (Ia := is_1_spec a Na). assert (Ib := is_1_spec b Nb). unfold mul_sign_fault.
  assert (Zero : (positive a =? 0) || (positive b =? 0) = true <-> value a * value b = 0).
  { destruct (positive_spec a Na) as [(S1&E1&_)|[(S1&E1&_)|(S1&E1&_)]];
    destruct (positive_spec b Nb) as [(S2&E2&_)|[(S2&E2&_)|(S2&E2&_)]]; rewrite E1, E2; cbn; split; intros; try nia; auto. }
  destruct ((positive a =? 0) || (positive b =? 0)).
  { pose proof (proj1 Zero eq_refl) as Z0. split; [apply normal_bi0|]. rewrite value_bi0. lia. }
  assert (NZ : value a * value b <> 0) by (intros E; apply Zero in E; discriminate). clear Zero.
  destruct (is_1 a).
  { pose proof (proj1 Ia eq_refl). rewrite neg_pos by auto. destruct (Z.ltb_spec (value a) 0).
    - split; [apply normal_negate; auto|]. rewrite value_negate.
      assert (E : value a = -1) by lia. rewrite E. lia.
    - split; [auto|]. assert (E : value a = 1) by lia. rewrite E. lia. }
  destruct (is_1 b).
  { pose proof (proj1 Ib eq_refl). rewrite neg_pos by auto. destruct (Z.ltb_spec (value b) 0).
    - split; [apply normal_negate; auto|]. rewrite value_negate.
      assert (E : value b = -1) by lia. rewrite E. lia.
    - split; [auto|]. assert (E : value b = 1) by lia. rewrite E. lia. }
  assert (Na1 : Z.abs (value a) <> 1) by (intros E; apply Ia in E; discriminate).
  assert (Nb1 : Z.abs (value b) <> 1) by (intros E; apply Ib in E; discriminate). clear Ia Ib.
  assert (Ne : mag a <> []).
  { intros E. rewrite E in Va. cbn in Va. apply NZ. replace (value a) with 0 by lia. lia. }
  destruct (mag b) as [|n l2] eqn:Eb.
  { exfalso. cbn in Vb. apply NZ. replace (value b) with 0 by lia. lia. }
  assert (Lb := proj1 Nb). rewrite Eb in Lb. inversion Lb as [|? ? Hn L2]; subst.
  cbn [mul_outer].
  destruct (mul_int_spec a n 0 Na Hn Ne) as (N1 & E1 & G1). rewrite andb_true_r in G1.
  destruct (mul_outer_spec a l2 1 (mul_int a n 0) Na Ne L2 N1 ltac:(lia)) as (N2 & E2 & G2).
  set (sum := mul_outer a l2 1 (mul_int a n 0)) in *.
  assert (Ev : eval (mag sum) = Z.abs (value a) * Z.abs (value b)).
  { rewrite E2, E1, Va, <- Vb, Bp_S, Bp_0. cbn [eval]. change 4294967296 with B. ring. }
  assert (Vs : value sum = if neg a && (n =? 1) then - (Z.abs (value a) * Z.abs (value b))
                           else Z.abs (value a) * Z.abs (value b)).
  { unfold value at 1. rewrite G2, G1, Ev. reflexivity. }
  assert (Hm : Z.abs (value b) mod 4294967296 = n).
  { rewrite <- Vb. cbn [eval]. pose proof B_val. lia. }
  rewrite Hm.
  destruct (positive_spec a Na) as [(S1&P1&Q1)|[(S1&P1&_)|(S1&P1&Q1)]]; [|exfalso; apply NZ; rewrite S1; lia|];
  (destruct (positive_spec b Nb) as [(S2&P2&Q2)|[(S2&P2&_)|(S2&P2&Q2)]]; [|exfalso; apply NZ; rewrite S2; lia|]);
  rewrite P1, P2; cbn [Z.eqb Pos.eqb]; rewrite Q1 in Vs; cbn [andb] in Vs;
  (split; [try apply normal_negate; auto|]); rewrite ?value_negate, Vs;
  rewrite ?(Z.abs_neq (value a)), ?(Z.abs_eq (value a)), ?(Z.abs_neq (value b)), ?(Z.abs_eq (value b)) by lia;
  destruct (Z.eqb_spec n 1); split; intros; lia.
Qed.

(** *** exponentiation *)
Lemma square_spec b s : normal b -> 0 < value b ->
  normal (square b s) /\ value (square b s) = value b ^ (2 ^ Z.of_nat s).
Proof.
  intros N P. induction s as [|s (Ns & Vs)]; cbn [square].
  - split; auto. change (2 ^ Z.of_nat 0) with 1. rewrite Z.pow_1_r. reflexivity.
  - destruct (mul_spec _ _ Ns Ns) as (Nm & _ & Vm). split; auto. rewrite Vm.
    + rewrite Vs, Nat2Z.inj_succ, Z.pow_succ_r by lia.
      rewrite <- Z.pow_add_r by (apply Z.pow_nonneg; lia). f_equal. lia.
    + intros (Hl & _). rewrite Vs in Hl.
      assert (0 <= value b ^ 2 ^ Z.of_nat s) by (apply Z.pow_nonneg; lia). lia.
Qed.

Lemma exp_shift_spec fuel : forall s e v s',
  2 ^ Z.of_nat s <= e -> e < 2 ^ Z.of_nat (s + fuel) ->
  exp_shift fuel (2 ^ Z.of_nat s) e s = (v, s') ->
  v = 2 ^ Z.of_nat s' /\ v <= e < 2 * v.
Proof.
  induction fuel as [|fuel IH]; intros s e v s' H1 H2; cbn [exp_shift].
  - rewrite Nat.add_0_r in H2. lia.
  - assert (P : 2 ^ Z.of_nat s * 2 = 2 ^ Z.of_nat (S s)).
    { rewrite Nat2Z.inj_succ, Z.pow_succ_r by lia. lia. }
    assert (0 < 2 ^ Z.of_nat s) by (apply Z.pow_pos_nonneg; lia).
    destruct (Z.ltb_spec e (2 ^ Z.of_nat s * 2)) as [A|A].
    + intros E. injection E as <- <-. lia.
    + destruct (Z.eqb_spec (2 ^ Z.of_nat s * 2) e) as [E'|E'].
      * intros E. injection E as <- <-. split; [rewrite P; reflexivity|lia].
      * rewrite P. intros E. apply (IH (S s) e v s'); auto; [lia|].
        replace (S s + fuel)%nat with (s + S fuel)%nat by lia. exact H2.
Qed.

Lemma exp_loop_spec fuel : forall base e res,
  normal base -> 0 < value base -> normal res -> 0 < value res ->
  1 <= e < 2 ^ Z.of_nat fuel -> e < 2 ^ 64 ->
  exists r, exp_loop fuel base e res = Some r /\ normal r /\ value r = value base ^ e * value res.
Proof.
  induction fuel as [|fuel IH]; intros base e res Nb Pb Nr Pr He H64; [cbn in He; lia|].
  cbn [exp_loop]. destruct (exp_shift 64 1 e 0) as [v s] eqn:Es.
  destruct (exp_shift_spec 64 0 e v s) as (Ev & Hv); auto; [cbn; lia|].
  destruct (square_spec base s Nb Pb) as (N1 & V1).
  assert (P1 : 0 < value (square base s)).
  { rewrite V1. apply Z.pow_pos_nonneg; [lia|]. apply Z.pow_nonneg; lia. }
  destruct (mul_spec _ _ N1 Nr) as (N2 & _ & V2).
  rewrite V1, <- Ev in V2. specialize (V2 ltac:(intros (Hl & _); rewrite Ev, <- V1 in Hl; lia)).
  assert (0 < v) by (rewrite Ev; apply Z.pow_pos_nonneg; lia).
  destruct (Z.ltb_spec v e) as [A|A].
  - assert (Hf : v <= 2 ^ Z.of_nat fuel).
    { rewrite Ev in *. apply Z.pow_le_mono_r; [lia|].
      assert (G : 2 ^ Z.of_nat s < 2 ^ Z.of_nat (S fuel)) by lia.
      apply Z.pow_lt_mono_r_iff in G; lia. }
    destruct (IH base (e - v) (mul (square base s) res)) as (r & E & Nr' & Vr); auto; try lia.
    exists r. split; auto. split; auto. rewrite Vr, V2.
    rewrite Z.mul_assoc, <- Z.pow_add_r by lia. f_equal. f_equal. lia.
  - eexists. split; [reflexivity|]. split; auto. rewrite V2. f_equal. f_equal. lia.
Qed.

Lemma limb_count b : normal b -> (1 < length (mag b))%nat <-> 4294967296 <= Z.abs (value b).
Proof.
  intros N. rewrite <- value_abs by auto. destruct N as (L & A & _).
  destruct (mag b) as [|x [|y t]].
  - cbn. lia.
  - inversion L; subst. cbn [eval length]. lia.
  - pose proof (nrm_low (x :: y :: t) L ltac:(discriminate) A) as P.
    cbn [length] in P. replace (Z.of_nat (S (S (length t))) - 1) with (Z.succ (Z.of_nat (length t))) in P by lia.
    rewrite Z.pow_succ_r in P by lia. pose proof (Bpow_pos (length t)). rewrite B_val in *.
    cbn [length]. split; [intros _; lia|lia].
Qed.

Lemma limb_one b : normal b -> 0 <= value b < 4294967296 -> nth 0 (mag b) 0 = value b.
Proof.
  intros N H. assert (V := value_abs b N). rewrite Z.abs_eq in V by lia.
  assert (C := limb_count b N). destruct (mag b) as [|x [|y t]].
  - cbn in *. lia.
  - cbn [eval nth] in *. lia.
  - cbn [length] in C. lia.
Qed.


Theorem exp_spec a b : normal a -> normal b ->
  (value b < 0 -> exponentiate a b = EThrow) /\
  (value a <> 0 -> 4294967296 <= value b -> exponentiate a b = EThrow) /\
  (0 <= value b -> (value a = 0 \/ value b < 4294967296) ->
   exists r, exponentiate a b = ERet r /\ normal r /\
     (exp_sign_fault (value a) (value b) -> value r = - value a) /\
     (~ exp_sign_fault (value a) (value b) -> value r = value a ^ value b)).
Proof.
  intros Na Nb. unfold exponentiate, exp_sign_fault.
  assert (Ia := is_1_spec a Na). assert (Va := value_abs a Na).
  assert (C := limb_count b Nb). rewrite !neg_pos by auto.
  destruct (positive_spec b Nb) as [(S2&P2&_)|[(S2&P2&_)|(S2&P2&_)]].
  - rewrite (proj2 (Z.ltb_lt _ _)) by lia. repeat split; auto; lia.
  - rewrite (proj2 (Z.ltb_ge (value b) 0)) by lia. rewrite P2. cbn [Z.eqb].
    split; [lia|]. split; [lia|]. intros _ _. eexists. split; [reflexivity|].
    split; [apply normal_signed; [repeat constructor; lia|cbn; lia]|].
    rewrite S2, value_signed. cbn [eval]. split; [lia|]. intros _. rewrite Z.pow_0_r. reflexivity.
  - rewrite (proj2 (Z.ltb_ge (value b) 0)) by lia. rewrite P2. cbn [Z.eqb].
    destruct (positive_spec a Na) as [(S1&P1&Q1)|[(S1&P1&_)|(S1&P1&Q1)]].
    2:{ rewrite P1. cbn [Z.eqb]. split; [lia|]. split; [lia|]. intros _ _.
        eexists. split; [reflexivity|]. split; [apply normal_bi0|]. rewrite S1, value_bi0.
        split; [lia|]. intros _. rewrite Z.pow_0_l by lia. reflexivity. }
    all: rewrite P1; cbn [Z.eqb Z.ltb Z.compare].
    all: rewrite Z.abs_eq in C by lia.
    all: destruct (Nat.ltb_spec 1 (length (mag b))) as [Hl|Hl];
      [ assert (4294967296 <= value b) by (apply C; auto);
        split; [lia|]; split; [reflexivity|]; intros; lia | ].
    all: assert (Hb : value b < 4294967296) by (destruct (Z.lt_ge_cases (value b) 4294967296); auto;
           assert (1 < length (mag b))%nat by (apply C; lia); lia).
    all: split; [lia|]; split; [lia|]; intros _ _.
    all: rewrite (limb_one b Nb) by lia.
    + destruct (is_1 a) eqn:I1.
      { assert (E : value a = -1) by (pose proof (proj1 Ia eq_refl); lia).
        assert (N1 : normal (signed false [1])) by (apply normal_signed; [repeat constructor; lia|cbn; lia]).
        eexists. split; [reflexivity|]. rewrite E.
        rewrite (proj2 (Z.ltb_lt (-1) 0)) by lia. cbn [andb].
        assert (Odd : (-1) ^ value b = if Z.odd (value b) then -1 else 1).
        { rewrite <- (Z2Nat.id (value b)) by lia. generalize (Z.to_nat (value b)). intros n.
          induction n as [|n IHn]; [reflexivity|]. rewrite Nat2Z.inj_succ, Z.pow_succ_r, IHn by lia.
          rewrite Z.odd_succ, <- Z.negb_odd. destruct (Z.odd (Z.of_nat n)); reflexivity. }
        rewrite Odd. destruct (Z.odd (value b)).
        - split; [apply normal_negate; auto|]. rewrite value_negate, value_signed. cbn [eval]. split; lia.
        - split; [auto|]. rewrite value_signed. cbn [eval]. split; lia. }
      assert (Na1 : Z.abs (value a) <> 1) by (intros E; apply Ia in E; discriminate).
      destruct (Z.eqb_spec (value b) 1) as [E1|E1].
      { rewrite E1. change (Z.odd 1) with true.
        rewrite (proj2 (Z.ltb_lt (value a) 0)) by lia. cbn [andb].
        eexists. split; [reflexivity|]. split; [apply normal_negate; auto|].
        rewrite value_negate. split; [lia|]. intros NF. exfalso. apply NF. lia. }
      assert (Np : normal (signed false (mag a))) by (apply normal_signed; apply Na).
      assert (Vp : value (signed false (mag a)) = - value a) by (rewrite value_signed; lia).
      assert (N1 : normal (signed false [1])) by (apply normal_signed; [repeat constructor; lia|cbn; lia]).
      destruct (exp_loop_spec 64 (signed false (mag a)) (value b) (signed false [1])) as (r & E & Nr & Vr); auto.
      { lia. } { rewrite value_signed. cbn [eval]. lia. }
      { change (2 ^ Z.of_nat 64) with 18446744073709551616. lia. }
      { change (2 ^ 64) with 18446744073709551616. lia. }
      rewrite E. rewrite (proj2 (Z.ltb_lt (value a) 0)) by lia. cbn [andb].
      rewrite Vp, value_signed in Vr. cbn [eval] in Vr.
      assert (Odd : (- value a) ^ value b = if Z.odd (value b) then - value a ^ value b else value a ^ value b).
      { destruct (Z.odd (value b)) eqn:O.
        - rewrite Z.pow_opp_odd; [reflexivity|]. apply Z.odd_spec. auto.
        - rewrite Z.pow_opp_even; [reflexivity|]. apply Z.even_spec. rewrite <- Z.negb_odd, O. reflexivity. }
      rewrite Odd in Vr. destruct (Z.odd (value b)).
      * eexists. split; [reflexivity|]. split; [apply normal_negate; auto|].
        rewrite value_negate. split; [lia|]. intros _. lia.
      * eexists. split; [reflexivity|]. split; auto. split; [lia|]. intros _. lia.
    + rewrite (proj2 (Z.ltb_ge (value a) 0)) by lia. cbn [andb].
      destruct (is_1 a) eqn:I1.
      { assert (E : value a = 1) by (pose proof (proj1 Ia eq_refl); lia).
        eexists. split; [reflexivity|].
        split; [apply normal_signed; [repeat constructor; lia|cbn; lia]|].
        rewrite E, value_signed. cbn [eval]. split; [lia|]. intros _. rewrite Z.pow_1_l by lia. reflexivity. }
      destruct (Z.eqb_spec (value b) 1) as [E1|E1].
      { rewrite E1. eexists. split; [reflexivity|]. split; auto. split; [lia|]. intros _. lia. }
      assert (Np : normal (signed false (mag a))) by (apply normal_signed; apply Na).
      assert (Vp : value (signed false (mag a)) = value a) by (rewrite value_signed; lia).
      assert (N1 : normal (signed false [1])) by (apply normal_signed; [repeat constructor; lia|cbn; lia]).
      destruct (exp_loop_spec 64 (signed false (mag a)) (value b) (signed false [1])) as (r & E & Nr & Vr); auto.
      { lia. } { rewrite value_signed. cbn [eval]. lia. }
      { change (2 ^ Z.of_nat 64) with 18446744073709551616. lia. }
      { change (2 ^ 64) with 18446744073709551616. lia. }
      rewrite E. rewrite Vp, value_signed in Vr. cbn [eval] in Vr.
      eexists. split; [reflexivity|]. split; auto. split; [lia|]. intros _. lia.
Qed.
