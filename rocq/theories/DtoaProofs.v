(** * Digit generation: proofs *)
Require Import ZArith QArith Qabs List Bool Lia.
From Verif Require Import DtoaModel DtoaSpec.
Import ListNotations.
Local Open Scope Z_scope.

(** ** The first exponent *)

Lemma pow10_pos : forall n, 0 <= n -> 0 < 10 ^ n.
Proof. intros; apply Z.pow_pos_nonneg; lia. Qed.

Lemma pow2_pos : forall n, 0 <= n -> 0 < 2 ^ n.
Proof. intros; apply Z.pow_pos_nonneg; lia. Qed.

Lemma pow10_succ : forall n, 0 <= n -> 10 ^ (n + 1) = 10 * 10 ^ n.
Proof. intros; rewrite Z.pow_add_r by lia; change (10 ^ 1) with 10; ring. Qed.

Lemma ilog10_spec : forall fuel n, 1 <= n -> n < 2 ^ Z.of_nat fuel ->
  0 <= ilog10 fuel n /\ 10 ^ (ilog10 fuel n) <= n < 10 ^ (ilog10 fuel n + 1).
Proof.
  induction fuel as [|f IH]; intros n H1 H2.
  - change (2 ^ Z.of_nat 0) with 1 in H2; lia.
  - cbn [ilog10]. destruct (Z.ltb_spec n 10) as [L|L].
    + change (10 ^ 0) with 1; change (10 ^ (0 + 1)) with 10; lia.
    + rewrite Nat2Z.inj_succ, Z.pow_succ_r in H2 by lia.
      destruct (IH (n / 10)) as (I0 & I1 & I2).
      * apply Z.div_le_lower_bound; lia.
      * apply Z.div_lt_upper_bound; lia.
      * set (q := ilog10 f (n / 10)) in *. clearbody q.
        pose proof (Z.div_mod n 10 ltac:(lia)) as E.
        pose proof (Z.mod_pos_bound n 10 ltac:(lia)) as M.
        rewrite (Z.add_comm 1 q). rewrite pow10_succ by lia.
        rewrite (pow10_succ (q + 1)) by lia. lia.
Qed.

Lemma log_fuel : forall n, 1 <= n -> n < 2 ^ Z.of_nat (S (Z.to_nat (Z.log2 n))).
Proof.
  intros n H. pose proof (Z.log2_spec n ltac:(lia)) as L.
  pose proof (Z.log2_nonneg n).
  rewrite Nat2Z.inj_succ, Z2Nat.id by lia. lia.
Qed.

Lemma kexp_spec : forall b s, 0 < b -> 0 < s ->
  s * 10 ^ (Z.max (kexp b s) 0) <= b * 10 ^ (Z.max (- kexp b s) 0)
  < 10 * (s * 10 ^ (Z.max (kexp b s) 0)).
Proof.
  intros b s Hb Hs. unfold kexp. destruct (Z.leb_spec s b) as [L|L].
  - assert (Q1 : 1 <= b / s) by (apply Z.div_le_lower_bound; lia).
    destruct (ilog10_spec _ _ Q1 (log_fuel _ Q1)) as (I0 & I1 & I2).
    set (q := ilog10 _ _) in *. clearbody q.
    rewrite Z.max_l by lia. rewrite Z.max_r by lia.
    change (10 ^ 0) with 1. rewrite Z.mul_1_r.
    rewrite pow10_succ in I2 by lia.
    pose proof (Z.div_mod b s ltac:(lia)) as E.
    pose proof (Z.mod_pos_bound b s ltac:(lia)) as M.
    split; [nia|].
    assert (s * (b / s + 1) <= s * (10 * 10 ^ q)) by (apply Z.mul_le_mono_nonneg_l; lia).
    lia.
  - assert (Q1 : 1 <= (s - 1) / b) by (apply Z.div_le_lower_bound; lia).
    destruct (ilog10_spec _ _ Q1 (log_fuel _ Q1)) as (I0 & I1 & I2).
    set (q := ilog10 _ _) in *. clearbody q.
    rewrite Z.max_r by lia. rewrite Z.max_l by lia.
    change (10 ^ 0) with 1. rewrite Z.mul_1_r.
    replace (- - (1 + q)) with (q + 1) by ring.
    rewrite pow10_succ in I2 by lia. rewrite pow10_succ by lia.
    pose proof (Z.div_mod (s - 1) b ltac:(lia)) as E.
    pose proof (Z.mod_pos_bound (s - 1) b ltac:(lia)) as M.
    assert (b * ((s - 1) / b + 1) <= b * (10 * 10 ^ q)) by (apply Z.mul_le_mono_nonneg_l; lia).
    assert (b * 10 ^ q <= b * ((s - 1) / b)) by (apply Z.mul_le_mono_nonneg_l; lia).
    lia.
Qed.

(** ** Digits with the last one first *)

Fixpoint rval (rs : list Z) : Z :=
  match rs with [] => 0 | d :: t => d + 10 * rval t end.

Definition zlen (l : list Z) : Z := Z.of_nat (length l).

Lemma zlen_cons : forall d l, zlen (d :: l) = zlen l + 1.
Proof. intros; unfold zlen; cbn [length]; lia. Qed.

Lemma zlen_nonneg : forall l, 0 <= zlen l.
Proof. intros; unfold zlen; lia. Qed.

Lemma rval_bound : forall rs, digit_list 10 rs -> 0 <= rval rs < 10 ^ zlen rs.
Proof.
  induction 1 as [|d t H F IH].
  - change (10 ^ zlen []) with 1. cbn. lia.
  - rewrite zlen_cons, pow10_succ by apply zlen_nonneg. cbn [rval]. lia.
Qed.

Definition lead (rs : list Z) : Prop := rs <> [] /\ last rs 0 <> 0.

Lemma lead_cons : forall d rs, lead rs -> lead (d :: rs).
Proof.
  intros d rs [H1 H2]; split; [discriminate|].
  destruct rs; [congruence|]. exact H2.
Qed.

Lemma lead_tail : forall d rs, lead (d :: rs) -> rs <> [] -> lead rs.
Proof.
  intros d rs [H1 H2] N; split; [exact N|].
  destruct rs; [congruence|]. exact H2.
Qed.

Lemma lead_val : forall rs, digit_list 10 rs -> lead rs -> 10 ^ (zlen rs - 1) <= rval rs.
Proof.
  induction rs as [|d t IH]; intros F L.
  - destruct L; congruence.
  - inversion F as [|? ? D F']; subst. destruct t as [|d' t].
    + destruct L as [_ L]. cbn in L. change (10 ^ (zlen [d] - 1)) with 1.
      change (rval [d]) with (d + 0). lia.
    + assert (Lt : lead (d' :: t)) by (apply (lead_tail d); [exact L|discriminate]).
      specialize (IH F' Lt). cbn [rval]. cbn [rval] in IH.
      rewrite zlen_cons.
      replace (zlen (d' :: t) + 1 - 1) with ((zlen (d' :: t) - 1) + 1) by ring.
      rewrite pow10_succ by (rewrite zlen_cons; pose proof (zlen_nonneg t); lia).
      lia.
Qed.

(** Both ways to end produce a tidy list of the same value. *)
Definition result_of (rs : list Z) (k v : Z) (rk : list Z * Z) : Prop :=
  let '(rs', k') := rk in
  digit_list 10 rs' /\ lead rs' /\ hd 0 rs' <> 0 /\ k <= k' <= k + 1 /\
  zlen rs' <= zlen rs + (k' - k) /\
  zlen rs' <= Z.max 1 (zlen rs) /\
  rval rs' * 10 ^ (k' - k + zlen rs - zlen rs') = v.

Lemma strip_ok : forall rs k, digit_list 10 rs -> lead rs ->
  result_of rs k (rval rs) (strip rs, k).
Proof.
  induction rs as [|d t IH]; intros k F L.
  - destruct L; congruence.
  - inversion F as [|? ? D F']; subst. cbn [strip].
    destruct (Z.eqb_spec d 0) as [->|N].
    + assert (T : t <> []).
      { intros ->. destruct L as [_ L]. cbn in L. congruence. }
      destruct (IH k F' (lead_tail _ _ L T)) as (R1 & R2 & R3 & R4 & R5 & R6 & R7).
      unfold result_of. rewrite zlen_cons.
      destruct t as [|x t]; [congruence|].
      rewrite (zlen_cons x t) in *. pose proof (zlen_nonneg t).
      repeat split; try assumption; try apply R2; try lia.
      replace (k - k + (zlen t + 1 + 1) - zlen (strip (x :: t)))
        with ((k - k + (zlen t + 1) - zlen (strip (x :: t))) + 1) by ring.
      rewrite pow10_succ by lia.
      change (rval (0 :: x :: t)) with (0 + 10 * rval (x :: t)).
      rewrite <- R7. ring.
    + unfold result_of.
      repeat split; try assumption; try apply L; try lia.
      replace (k - k + zlen (d :: t) - zlen (d :: t)) with 0 by ring.
      change (10 ^ 0) with 1. ring.
Qed.

Lemma round_off_ok : forall rs k, digit_list 10 rs ->
  (rs = [] \/ lead rs) -> result_of rs k (rval rs + 1) (round_off rs k).
Proof.
  induction rs as [|d t IH]; intros k F L.
  - cbn [round_off]. unfold result_of.
    split; [constructor; [lia|constructor]|].
    split; [split; [discriminate|cbn; lia]|].
    split; [cbn; lia|]. change (zlen [1]) with 1. change (zlen []) with 0.
    repeat split; try lia. replace (k + 1 - k + 0 - 1) with 0 by ring. reflexivity.
  - inversion F as [|? ? D F']; subst. cbn [round_off].
    assert (L' : t = [] \/ lead t).
    { destruct t; [now left|right].
      destruct L as [L|L]; [discriminate|]. apply (lead_tail d); [exact L|discriminate]. }
    destruct (Z.eqb_spec d 9) as [->|N].
    + specialize (IH k F' L'). destruct (round_off t k) as [rs' k'].
      destruct IH as (R1 & R2 & R3 & R4 & R5 & R6 & R7).
      unfold result_of. rewrite zlen_cons. pose proof (zlen_nonneg t).
      repeat split; try assumption; try apply R2; try lia.
      replace (k' - k + (zlen t + 1) - zlen rs') with ((k' - k + zlen t - zlen rs') + 1) by ring.
      rewrite pow10_succ by lia. cbn [rval].
      replace (rval rs' * (10 * 10 ^ (k' - k + zlen t - zlen rs')))
        with (10 * (rval rs' * 10 ^ (k' - k + zlen t - zlen rs'))) by ring.
      rewrite R7. ring.
    + unfold result_of.
      split; [constructor; [lia|assumption]|].
      split.
      { split; [discriminate|]. destruct t as [|x t]; [cbn; lia|].
        destruct L as [L|[_ L]]; [discriminate|]. exact L. }
      cbn [hd]. rewrite !zlen_cons. cbn [rval]. pose proof (zlen_nonneg t).
      repeat split; try lia.
      replace (k - k + (zlen t + 1) - (zlen t + 1)) with 0 by ring.
      change (10 ^ 0) with 1. ring.
Qed.

(** ** Shortest digits *)

Section Shortest.
Variables B S0 lo hi : Z.
Variables acc cont strict : bool.
Variable k : Z.
Hypothesis S_pos : 0 < S0.
Hypothesis lo_pos : 0 < lo.
Hypothesis hi_pos : 0 < hi.
Hypothesis B_low : S0 <= B.
Hypothesis B_high : B < 10 * S0.
Hypothesis gap : S0 < (lo + hi) * 10 ^ 16.

(** p digits were not enough. *)
Definition not_enough (i p : Z) : Prop :=
  10 ^ (i - 1) <= p /\
  lo * 10 ^ (i - 1) <= B * 10 ^ (i - 1) - p * S0 /\
  (lo * 10 ^ (i - 1) = B * 10 ^ (i - 1) - p * S0 -> cont = true) /\
  hi * 10 ^ (i - 1) <= (p + 1) * S0 - B * 10 ^ (i - 1) /\
  (hi * 10 ^ (i - 1) = (p + 1) * S0 - B * 10 ^ (i - 1) -> cont = true).

Definition good (rk : list Z * Z) : Prop :=
  let '(rs', k') := rk in
  exists i D,
    1 <= i <= 17 /\ digit_list 10 rs' /\ lead rs' /\ hd 0 rs' <> 0 /\
    k <= k' <= k + 1 /\ zlen rs' <= i /\ zlen rs' <= i + (k' - k) /\
    rval rs' * 10 ^ (k' - k + i - zlen rs') = D /\
    B * 10 ^ (i - 1) - D * S0 <= lo * 10 ^ (i - 1) /\
    (B * 10 ^ (i - 1) - D * S0 = lo * 10 ^ (i - 1) -> acc = true) /\
    D * S0 - B * 10 ^ (i - 1) <= hi * 10 ^ (i - 1) /\
    (D * S0 - B * 10 ^ (i - 1) = hi * 10 ^ (i - 1) -> acc = true) /\
    (2 <= i -> exists p, not_enough (i - 1) p) /\
    (strict = true -> - S0 < B * 10 ^ (i - 1) - D * S0 < S0).

(** The state after some digits, and b. *)
Definition state (b : Z) (rs : list Z) : Prop :=
  digit_list 10 rs /\ (rs = [] \/ lead rs) /\ (rs = [] -> S0 <= b) /\
  0 <= b < 10 * S0 /\
  B * 10 ^ zlen rs = 10 * rval rs * S0 + b /\
  (rs <> [] -> not_enough (zlen rs) (rval rs)).

Lemma state_start : state B [].
Proof.
  unfold state. repeat split; try tauto; try lia; try constructor.
  change (10 ^ zlen []) with 1. change (rval []) with 0. lia.
Qed.

Lemma state_digit : forall b rs, state b rs -> zlen rs <= 16 ->
  let dig := b / S0 in let r := b mod S0 in
  0 <= dig <= 9 /\ 0 <= r < S0 /\ digit_list 10 (dig :: rs) /\ lead (dig :: rs) /\
  B * 10 ^ zlen rs = rval (dig :: rs) * S0 + r /\
  10 ^ zlen rs <= rval (dig :: rs) /\
  (2 <= zlen rs + 1 -> exists p, not_enough (zlen rs + 1 - 1) p).
Proof.
  intros b rs (F & L & N & Hb & E & H) Le dig r.
  assert (R : 0 <= r < S0) by (apply Z.mod_pos_bound; lia).
  assert (DM : b = S0 * dig + r) by (apply Z.div_mod; lia).
  assert (D0 : 0 <= dig) by (apply Z.div_pos; lia).
  assert (D9 : dig < 10) by (apply Z.div_lt_upper_bound; lia).
  clearbody dig r.
  assert (F' : digit_list 10 (dig :: rs)) by (constructor; [lia|assumption]).
  assert (L' : lead (dig :: rs)).
  { destruct L as [->|L]; [|apply lead_cons; exact L].
    split; [discriminate|]. cbn. specialize (N eq_refl). intros ->. lia. }
  split; [lia|]. split; [exact R|]. split; [exact F'|]. split; [exact L'|].
  split; [cbn [rval]; rewrite E, DM; ring|].
  split.
  { pose proof (lead_val _ F' L') as LV. rewrite zlen_cons in LV.
    replace (zlen rs + 1 - 1) with (zlen rs) in LV by ring. exact LV. }
  intros I2. exists (rval rs). replace (zlen rs + 1 - 1) with (zlen rs) by ring.
  apply H. intros ->. change (zlen []) with 0 in I2. lia.
Qed.

Lemma keep_good : forall b rs, state b rs -> zlen rs <= 16 ->
  b mod S0 <= lo * 10 ^ zlen rs ->
  (b mod S0 = lo * 10 ^ zlen rs -> acc = true) ->
  good (strip (b / S0 :: rs), k).
Proof using S_pos hi_pos B_low B_high.
  intros b rs St Le A1 A2.
  destruct (state_digit _ _ St Le) as (D & R & F & L & E & G & H).
  pose proof (strip_ok _ k F L) as RO. pose proof (zlen_nonneg rs) as ZN.
  set (dig := b / S0) in *. set (r := b mod S0) in *. clearbody dig r.
  destruct RO as (R1 & R2 & R3 & R4 & R5 & R6 & R7).
  rewrite zlen_cons in *.
  exists (zlen rs + 1), (rval (dig :: rs)).
  replace (zlen rs + 1 - 1) with (zlen rs) in * by ring.
  assert (0 < hi * 10 ^ zlen rs) by (apply Z.mul_pos_pos; [lia|apply pow10_pos; lia]).
  repeat split; try assumption; try apply R2; try lia;
    intros EQ; try (apply A2; lia); exfalso; lia.
Qed.

Lemma up_good : forall b rs, state b rs -> zlen rs <= 16 ->
  S0 - b mod S0 <= hi * 10 ^ zlen rs ->
  (S0 - b mod S0 = hi * 10 ^ zlen rs -> acc = true) ->
  (strict = true -> 0 < b mod S0) ->
  good (round_off (b / S0 :: rs) k).
Proof using S_pos lo_pos B_low B_high.
  intros b rs St Le A1 A2 A3.
  destruct (state_digit _ _ St Le) as (D & R & F & L & E & G & H).
  pose proof (round_off_ok _ k F (or_intror L)) as RO. pose proof (zlen_nonneg rs) as ZN.
  set (dig := b / S0) in *. set (r := b mod S0) in *. clearbody dig r.
  destruct (round_off (dig :: rs) k) as [rs' k'].
  destruct RO as (R1 & R2 & R3 & R4 & R5 & R6 & R7).
  rewrite zlen_cons in *.
  exists (zlen rs + 1), (rval (dig :: rs) + 1).
  replace (zlen rs + 1 - 1) with (zlen rs) in * by ring.
  assert (0 < lo * 10 ^ zlen rs) by (apply Z.mul_pos_pos; [lia|apply pow10_pos; lia]).
  repeat split; try assumption; try apply R2; try lia;
    try (intros EQ; try (apply A2; lia); exfalso; lia);
    match goal with E : strict = true |- _ => specialize (A3 E); lia end.
Qed.

Lemma go_on : forall b rs, state b rs -> zlen rs <= 16 ->
  lo * 10 ^ zlen rs <= b mod S0 ->
  (lo * 10 ^ zlen rs = b mod S0 -> cont = true) ->
  hi * 10 ^ zlen rs <= S0 - b mod S0 ->
  (hi * 10 ^ zlen rs = S0 - b mod S0 -> cont = true) ->
  state (10 * (b mod S0)) (b / S0 :: rs) /\ zlen (b / S0 :: rs) <= 16.
Proof using S_pos lo_pos hi_pos B_low B_high gap.
  intros b rs St Le A1 A2 A3 A4.
  destruct (state_digit _ _ St Le) as (D & R & F & L & E & G & H).
  pose proof (zlen_nonneg rs) as ZN.
  set (dig := b / S0) in *. set (r := b mod S0) in *. clearbody dig r.
  split.
  - unfold state. rewrite zlen_cons.
    split; [exact F|]. split; [now right|]. split; [discriminate|].
    split; [lia|]. split; [rewrite pow10_succ by lia; lia|].
    intros _. unfold not_enough. replace (zlen rs + 1 - 1) with (zlen rs) by ring.
    repeat split; try lia; try (intros EQ; first [apply A2; lia | apply A4; lia]).
  - rewrite zlen_cons. destruct (Z.eq_dec (zlen rs) 16) as [E16|]; [|lia].
    rewrite E16 in *. exfalso. lia.
Qed.

End Shortest.

Lemma up_strip : forall d rs k, 0 <= d -> d <> 9 ->
  (strip (d + 1 :: rs), k) = round_off (d :: rs) k.
Proof.
  intros d rs k H N. cbn [strip round_off].
  destruct (Z.eqb_spec (d + 1) 0); [lia|].
  destruct (Z.eqb_spec d 9); [lia|]. reflexivity.
Qed.

Lemma big_good : forall even B S0 lo hi k, 0 < S0 -> 0 < lo -> 0 < hi ->
  S0 <= B -> B < 10 * S0 -> S0 < (lo + hi) * 10 ^ 16 ->
  forall fuel b rs, state B S0 lo hi (negb even) b rs ->
  Z.of_nat fuel + zlen rs = 17 -> zlen rs <= 16 ->
  exists rk, shortest_big fuel even b S0 (lo * 10 ^ zlen rs) (hi * 10 ^ zlen rs) rs k = Some rk /\
             good B S0 lo hi even (negb even) false k rk.
Proof.
  intros even B S0 lo hi k HS Hlo Hhi B1 B2 Gap.
  induction fuel as [|f IH]; intros b rs St Fu Le; [lia|].
  cbn [shortest_big].
  pose proof (keep_good B S0 lo hi even (negb even) false k HS Hhi B1 B2 b rs St Le) as KG.
  pose proof (up_good B S0 lo hi even (negb even) false k HS Hlo B1 B2 b rs St Le) as UG.
  pose proof (go_on B S0 lo hi (negb even) HS Hlo Hhi B1 B2 Gap b rs St Le) as GO.
  destruct (state_digit B S0 lo hi (negb even) HS b rs St Le) as (D & R & _).
  set (dig := b / S0) in *. set (r := b mod S0) in *. clearbody dig r.
  set (lo' := lo * 10 ^ zlen rs) in *. set (hi' := hi * 10 ^ zlen rs) in *.
  set (j := r ?= lo').
  set (j1 := if S0 - hi' <? 0 then Gt else r ?= S0 - hi').
  assert (UP : exists rk, (if dig =? 9 then Some (round_off (9 :: rs) k)
                      else Some (strip (dig + 1 :: rs), k)) = Some rk /\
               rk = round_off (dig :: rs) k).
  { destruct (Z.eqb_spec dig 9) as [->|N]; [eauto|]. rewrite up_strip by lia. eauto. }
  assert (J1 : match j1 with Gt => S0 - hi' < r | Eq => r = S0 - hi' | Lt => r < S0 - hi' end).
  { subst j1. destruct (Z.ltb_spec (S0 - hi') 0); [lia|].
    destruct (Z.compare_spec r (S0 - hi')); lia. }
  assert (J : match j with Gt => lo' < r | Eq => r = lo' | Lt => r < lo' end).
  { subst j. destruct (Z.compare_spec r lo'); lia. }
  clearbody j j1.
  destruct (is_eq j1 && even) eqn:C1.
  { apply andb_prop in C1. destruct C1 as [C1 ->]. destruct j1; try discriminate.
    destruct (dig =? 9) eqn:E9.
    - apply Z.eqb_eq in E9. subst dig. eexists; split; [reflexivity|]. apply UG; try lia; discriminate.
    - apply Z.eqb_neq in E9. destruct (is_gt j) eqn:GJ.
      + eexists; split; [reflexivity|]. rewrite up_strip by lia. apply UG; try lia; discriminate.
      + eexists; split; [reflexivity|]. apply KG; destruct j; try discriminate; lia. }
  destruct (is_lt j || (is_eq j && even)) eqn:C2.
  { assert (K1 : r <= lo') by (destruct j; cbn in C2; try discriminate; lia).
    assert (K2 : r = lo' -> even = true).
    { intros. destruct j; cbn in C2; try lia; try assumption; discriminate. }
    destruct (r =? 0); [eexists; split; [reflexivity|]; apply KG; assumption|].
    match goal with |- context [if ?c then _ else _] => destruct c eqn:C3 end.
    - apply andb_prop in C3. destruct C3 as [C3 _]. destruct j1; try discriminate.
      destruct UP as (rk & -> & ->). eexists; split; [reflexivity|]. apply UG; try lia; discriminate.
    - eexists; split; [reflexivity|]. apply KG; assumption. }
  destruct (is_gt j1) eqn:C3.
  { destruct j1; try discriminate.
    destruct UP as (rk & -> & ->). eexists; split; [reflexivity|]. apply UG; try lia; discriminate. }
  destruct GO as [St' Le'].
  - destruct j; cbn in C2; try discriminate; lia.
  - intros. destruct j; cbn in C2; try lia. destruct even; [discriminate|reflexivity].
  - destruct j1; try discriminate; lia.
  - intros. destruct j1; cbn in C1; try lia; try discriminate.
    destruct even; [discriminate|reflexivity].
  - rewrite zlen_cons in Le'. pose proof (zlen_nonneg rs) as ZN.
    destruct (IH (10 * r) (dig :: rs) St') as (rk & ER & G).
    + rewrite zlen_cons. lia.
    + rewrite zlen_cons. lia.
    + exists rk. split; [|exact G]. rewrite <- ER. f_equal; subst lo' hi'; rewrite zlen_cons, pow10_succ by lia; ring.
Qed.

Lemma exact_good : forall (spec : bool) b0 s u k,
  let c := if spec then 4 else 2 in
  let hi := if spec then 2 * u else u in
  0 < s -> 0 < u -> s <= b0 -> b0 < 10 * s -> c * s < (u + hi) * 10 ^ 16 ->
  forall fuel b rs, state (c * b0) (c * s) u hi true (c * b) rs ->
  Z.of_nat fuel + zlen rs = 17 -> zlen rs <= 16 ->
  exists rk, shortest_exact fuel spec b s (u * 10 ^ zlen rs) rs k = Some rk /\
             good (c * b0) (c * s) u hi true true true k rk.
Proof.
  intros spec b0 s u k c hi HS Hu B1 B2 Gap.
  assert (Hc : c = 2 \/ c = 4) by (subst c; destruct spec; auto).
  assert (Hhi : 0 < hi) by (subst hi; destruct spec; lia).
  assert (HS' : 0 < c * s) by lia.
  induction fuel as [|f IH]; intros b rs St Fu Le; [lia|].
  cbn [shortest_exact].
  pose proof (keep_good (c * b0) (c * s) u hi true true true k HS' Hhi ltac:(nia) ltac:(nia) (c * b) rs St Le) as KG.
  pose proof (up_good (c * b0) (c * s) u hi true true true k HS' Hu ltac:(nia) ltac:(nia) (c * b) rs St Le) as UG.
  pose proof (go_on (c * b0) (c * s) u hi true HS' Hu Hhi ltac:(nia) ltac:(nia) Gap (c * b) rs St Le) as GO.
  destruct (state_digit (c * b0) (c * s) u hi true HS' (c * b) rs St Le) as (D & R & _).
  assert (ED : c * b / (c * s) = b / s) by (apply Z.div_mul_cancel_l; lia).
  assert (EM : (c * b) mod (c * s) = c * (b mod s)) by (apply Z.mul_mod_distr_l; lia).
  rewrite ED, EM in *. clear ED EM.
  set (dig := b / s) in *. set (r := b mod s) in *. clearbody dig r.
  pose proof (zlen_nonneg rs) as ZN. pose proof (pow10_pos (zlen rs) ZN) as PP.
  set (u' := u * 10 ^ zlen rs) in *.
  assert (Hu' : 0 < u') by (apply Z.mul_pos_pos; lia).
  assert (EH : hi * 10 ^ zlen rs = if spec then 2 * u' else u').
  { subst hi u'. destruct spec; ring. }
  rewrite EH in *. clear EH.
  assert (RP : 0 <= r < s) by (destruct Hc as [-> | ->]; lia).
  destruct (Z.eqb_spec r 0) as [Z0|NZ].
  { eexists; split; [reflexivity|]. apply KG; [rewrite Z0; lia|reflexivity]. }
  match goal with |- context [if ?c then _ else _] => destruct c eqn:C1 end.
  { apply andb_prop in C1. destruct C1 as [C1 C1'].
    apply Z.leb_le in C1.
    assert (K : c * r <= u').
    { subst c. destruct spec; [apply Z.leb_le in C1'; lia|lia]. }
    match goal with |- context [if ?c then _ else _] => destruct c eqn:C2 end.
    - eexists; split; [reflexivity|]. apply UG; [|reflexivity|intros _; destruct Hc as [-> | ->]; lia].
      assert (s - r <= r).
      { apply orb_prop in C2. destruct C2 as [C2|C2]; [apply Z.ltb_lt in C2; lia|].
        apply andb_prop in C2. destruct C2 as [C2 _]. apply Z.eqb_eq in C2. lia. }
      subst c. destruct spec; lia.
    - eexists; split; [reflexivity|]. apply KG; [lia|reflexivity]. }
  destruct (Z.ltb_spec (2 * (s - r)) u') as [C2|C2].
  { eexists; split; [reflexivity|]. apply UG; [|reflexivity|intros _; destruct Hc as [-> | ->]; lia]. subst c; destruct spec; lia. }
  assert (K : u' <= c * r).
  { apply andb_false_iff in C1. subst c.
    destruct spec.
    - destruct C1 as [C1|C1]; apply Z.leb_gt in C1; lia.
    - destruct C1 as [C1|C1]; [apply Z.leb_gt in C1; lia|].
      apply orb_false_iff in C1. destruct C1 as [C1 _]. apply Z.ltb_ge in C1. lia. }
  destruct GO as [St' Le']; try reflexivity.
  - exact K.
  - subst c; destruct spec; lia.
  - rewrite zlen_cons in Le'.
    destruct (IH (10 * r) (dig :: rs)) as (rk & ER & G).
    + replace (c * (10 * r)) with (10 * (c * r)) by ring. exact St'.
    + rewrite zlen_cons. lia.
    + rewrite zlen_cons. lia.
    + exists rk. split; [|exact G]. rewrite <- ER. f_equal. subst u'. rewrite zlen_cons, pow10_succ by lia; ring.
Qed.
