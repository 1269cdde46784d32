(** * Rounded digits and layouts: proofs *)
Require Import ZArith List Bool Lia.
From Verif Require Import DtoaModel DtoaSpec DtoaProofs.
Import ListNotations.
Local Open Scope Z_scope.

(** ** Rounding *)

Lemma divmod_unique : forall B N s r, 0 < s -> B = N * s + r -> 0 <= r < s ->
  B / s = N /\ B mod s = r.
Proof.
  intros B N s r H E R. split.
  - symmetry. apply (Z.div_unique_pos _ _ N r); lia.
  - symmetry. apply (Z.mod_unique_pos _ _ N r); lia.
Qed.

Lemma round_up_at : forall B N s r, 0 < s -> B = N * s + r -> 0 <= r < s ->
  round_up B s = if s <=? 2 * r then N + 1 else N.
Proof.
  intros B N s r H E R. unfold round_up.
  destruct (Z.leb_spec s (2 * r)).
  - symmetry. apply (Z.div_unique_pos _ _ _ (2 * r - s)); [lia|]. rewrite E. ring.
  - symmetry. apply (Z.div_unique_pos _ _ _ (2 * r + s)); [lia|]. rewrite E. ring.
Qed.

Lemma round_even_at : forall B N s r, 0 < s -> B = N * s + r -> 0 <= r < s ->
  round_even B s = if (s <? 2 * r) || ((2 * r =? s) && Z.odd N) then N + 1 else N.
Proof.
  intros B N s r H E R. unfold round_even.
  destruct (divmod_unique _ _ _ _ H E R) as [-> ->].
  rewrite (round_up_at _ _ _ _ H E R).
  rewrite <- Z.negb_odd.
  destruct (Z.ltb_spec s (2 * r)), (Z.eqb_spec (2 * r) s), (Z.leb_spec s (2 * r)); try lia;
    destruct (Z.odd N); reflexivity.
Qed.

Lemma round_up_scale : forall c b s, 0 < c -> 0 < s -> round_up (c * b) (c * s) = round_up b s.
Proof.
  intros. unfold round_up.
  replace (2 * (c * b) + c * s) with (c * (2 * b + s)) by ring.
  replace (2 * (c * s)) with (c * (2 * s)) by ring.
  apply Z.div_mul_cancel_l; lia.
Qed.

Lemma tie_scale : forall c b s, 0 < c -> 0 < s -> tie_down (c * b) (c * s) = tie_down b s.
Proof.
  intros. unfold tie_down.
  rewrite Z.div_mul_cancel_l, Z.mul_mod_distr_l by lia.
  f_equal. destruct (Z.eqb_spec (2 * (b mod s)) s), (Z.eqb_spec (2 * (c * (b mod s))) (c * s)); nia.
Qed.

Lemma round_even_scale : forall c b s, 0 < c -> 0 < s ->
  round_even (c * b) (c * s) = round_even b s.
Proof.
  intros. unfold round_even. fold (tie_down (c * b) (c * s)). fold (tie_down b s).
  rewrite tie_scale, round_up_scale by lia.
  rewrite Z.div_mul_cancel_l by lia. reflexivity.
Qed.

Lemma cross : forall A (F : Z -> Z -> A),
  (forall c b s, 0 < c -> 0 < s -> F (c * b) (c * s) = F b s) ->
  forall b1 s1 b2 s2, 0 < s1 -> 0 < s2 -> b1 * s2 = b2 * s1 -> F b1 s1 = F b2 s2.
Proof.
  intros A F H b1 s1 b2 s2 H1 H2 E.
  rewrite <- (H s2 b1 s1), <- (H s1 b2 s2) by lia.
  f_equal; lia.
Qed.

Lemma nearest_up_ok : forall b s, 0 < s -> nearest_up b s (round_up b s).
Proof.
  intros b s H n'.
  pose proof (Z.div_mod b s ltac:(lia)) as E.
  pose proof (Z.mod_pos_bound b s H) as M.
  rewrite (round_up_at b (b / s) s (b mod s)) by (try lia).
  set (N := b / s) in *. set (r := b mod s) in *. clearbody N r. subst b.
  destruct (Z.leb_spec s (2 * r)).
  - replace ((N + 1) * s - (s * N + r)) with (s - r) by ring.
    replace (n' * s - (s * N + r)) with ((n' - N) * s - r) by ring.
    assert (n' <= N \/ n' = N + 1 \/ N + 2 <= n') as [D|[D|D]] by lia.
    + assert ((n' - N) * s <= 0) by nia. lia.
    + subst. replace ((N + 1 - N) * s) with s by ring. lia.
    + assert (2 * s <= (n' - N) * s) by nia. lia.
  - replace (N * s - (s * N + r)) with (- r) by ring.
    replace (n' * s - (s * N + r)) with ((n' - N) * s - r) by ring.
    assert (n' <= N - 1 \/ n' = N \/ N + 1 <= n') as [D|[D|D]] by lia.
    + assert ((n' - N) * s <= - s) by nia. lia.
    + subst. replace ((N - N) * s) with 0 by ring. lia.
    + assert (s <= (n' - N) * s) by nia. lia.
Qed.

Lemma nearest_even_ok : forall b s, 0 < s -> nearest_even b s (round_even b s).
Proof.
  intros b s H n'.
  pose proof (Z.div_mod b s ltac:(lia)) as E.
  pose proof (Z.mod_pos_bound b s H) as M.
  rewrite (round_even_at b (b / s) s (b mod s)) by (try lia).
  set (N := b / s) in *. set (r := b mod s) in *. clearbody N r. subst b.
  destruct (Z.ltb_spec s (2 * r)); [|destruct (Z.eqb_spec (2 * r) s); [destruct (Z.odd N) eqn:O|]]; cbn [orb andb].
  - replace ((N + 1) * s - (s * N + r)) with (s - r) by ring.
    replace (n' * s - (s * N + r)) with ((n' - N) * s - r) by ring.
    assert (n' <= N \/ n' = N + 1 \/ N + 2 <= n') as [D|[D|D]] by lia.
    + assert ((n' - N) * s <= 0) by nia. split; [lia|intros; lia].
    + subst. replace ((N + 1 - N) * s) with s by ring. split; [lia|intros; lia].
    + assert (2 * s <= (n' - N) * s) by nia. split; [lia|intros; lia].
  - replace ((N + 1) * s - (s * N + r)) with (s - r) by ring.
    replace (n' * s - (s * N + r)) with ((n' - N) * s - r) by ring.
    split; [|intros _ _; rewrite Z.add_1_r, Z.even_succ; exact O].
    assert (n' <= N \/ N + 1 <= n') as [D|D] by lia.
    + assert ((n' - N) * s <= 0) by nia. lia.
    + assert (s <= (n' - N) * s) by nia. lia.
  - replace (N * s - (s * N + r)) with (- r) by ring.
    replace (n' * s - (s * N + r)) with ((n' - N) * s - r) by ring.
    split; [|intros _ _; rewrite <- Z.negb_odd, O; reflexivity].
    assert (n' <= N \/ N + 1 <= n') as [D|D] by lia.
    + assert ((n' - N) * s <= 0) by nia. lia.
    + assert (s <= (n' - N) * s) by nia. lia.
  - replace (N * s - (s * N + r)) with (- r) by ring.
    replace (n' * s - (s * N + r)) with ((n' - N) * s - r) by ring.
    assert (n' <= N - 1 \/ n' = N \/ N + 1 <= n') as [D|[D|D]] by lia.
    + assert ((n' - N) * s <= - s) by nia. split; [lia|intros; lia].
    + subst. replace ((N - N) * s) with 0 by ring. split; [lia|intros; lia].
    + assert (s <= (n' - N) * s) by nia. split; [lia|intros; lia].
Qed.

(** ** n digits *)

Lemma odd_rval : forall d rs, Z.odd (rval (d :: rs)) = Z.odd d.
Proof.
  intros. cbn [rval]. replace (d + 10 * rval rs) with (d + 2 * (5 * rval rs)) by ring.
  apply Z.odd_add_mul_2.
Qed.

Lemma some_digits_ok : forall s, 0 < s -> forall n b rs, (1 <= n)%nat ->
  0 <= b < 10 * s -> digit_list 10 rs -> (rs = [] \/ lead rs) -> (rs = [] -> s <= b) ->
  let '(rs', r) := some_digits n b s rs in
  digit_list 10 rs' /\ lead rs' /\ 0 <= r < s /\
  zlen rs' <= zlen rs + Z.of_nat n /\
  (zlen rs' = zlen rs + Z.of_nat n \/ r = 0) /\
  (10 * rval rs * s + b) * 10 ^ (Z.of_nat n - 1) =
    rval rs' * 10 ^ (zlen rs + Z.of_nat n - zlen rs') * s + r.
Proof.
  intros s Hs. induction n as [|n IH]; intros b rs Hn Hb F L N; [lia|].
  cbn [some_digits].
  pose proof (Z.div_mod b s ltac:(lia)) as E.
  pose proof (Z.mod_pos_bound b s Hs) as M.
  assert (D0 : 0 <= b / s) by (apply Z.div_pos; lia).
  assert (D9 : b / s < 10) by (apply Z.div_lt_upper_bound; lia).
  set (dig := b / s) in *. set (r := b mod s) in *. clearbody dig r.
  assert (F' : digit_list 10 (dig :: rs)) by (constructor; [lia|assumption]).
  assert (L' : lead (dig :: rs)).
  { destruct L as [->|L]; [|apply lead_cons; exact L].
    split; [discriminate|]. cbn. specialize (N eq_refl). intros ->. lia. }
  destruct n as [|n].
  - rewrite zlen_cons. repeat split; try assumption; try apply L'; try lia.
    change (Z.of_nat 1 - 1) with 0. replace (zlen rs + Z.of_nat 1 - (zlen rs + 1)) with 0 by lia.
    change (10 ^ 0) with 1. cbn [rval]. rewrite E. ring.
  - destruct (Z.eqb_spec r 0) as [R0|R0].
    + rewrite zlen_cons. repeat split; try assumption; try apply L'; try lia.
      replace (zlen rs + Z.of_nat (S (S n)) - (zlen rs + 1)) with (Z.of_nat (S (S n)) - 1) by lia.
      cbn [rval]. rewrite E, R0. ring.
    + specialize (IH (10 * r) (dig :: rs) ltac:(lia) ltac:(lia) F' (or_intror L') ltac:(discriminate)).
      destruct (some_digits (S n) (10 * r) s (dig :: rs)) as [rs' r'].
      rewrite zlen_cons in IH. destruct IH as (I1 & I2 & I3 & I4 & I5 & I6).
      replace (zlen rs + 1 + Z.of_nat (S n)) with (zlen rs + Z.of_nat (S (S n))) in * by lia.
      repeat split; try assumption; try apply I2; try lia.
      rewrite <- I6. cbn [rval].
      replace (Z.of_nat (S (S n)) - 1) with ((Z.of_nat (S n) - 1) + 1) by lia.
      rewrite pow10_succ by lia. rewrite E. ring.
Qed.

Definition digits_of (k n v : Z) (rk : list Z * Z) : Prop :=
  let '(rs', k') := rk in
  digit_list 10 rs' /\ lead rs' /\ hd 0 rs' <> 0 /\ k <= k' <= k + 1 /\
  zlen rs' <= n /\
  rval rs' * 10 ^ (k' - k + n - zlen rs') = v.

Lemma fixed_digits_ok : forall n b s k, (1 <= n)%nat -> 0 < s -> s <= b < 10 * s ->
  digits_of k (Z.of_nat n) (round_even (b * 10 ^ (Z.of_nat n - 1)) s) (fixed_digits n b s k).
Proof.
  intros n b s k Hn Hs Hb. unfold fixed_digits.
  pose proof (some_digits_ok s Hs n b [] Hn ltac:(lia) ltac:(constructor) ltac:(now left) ltac:(lia)) as SD.
  destruct (some_digits n b s []) as [rs r].
  destruct SD as (F & L & R & Le & C & E).
  change (zlen []) with 0 in *. cbn [rval] in E.
  rewrite (Z.add_0_l (Z.of_nat n)) in *. replace (10 * 0 * s + b) with b in E by ring.
  assert (ZP : 1 <= zlen rs).
  { destruct rs as [|x rs]; [destruct L; congruence|]. rewrite zlen_cons. pose proof (zlen_nonneg rs). lia. }
  rewrite (round_even_at _ _ _ _ Hs E R).
  assert (Par : (2 * r =? s) && Z.odd (hd 0 rs) =
                (2 * r =? s) && Z.odd (rval rs * 10 ^ (Z.of_nat n - zlen rs))).
  { destruct C as [C|C].
    - rewrite C. replace (Z.of_nat n - Z.of_nat n) with 0 by ring. change (10 ^ 0) with 1.
      rewrite Z.mul_1_r. destruct rs as [|d t]; [destruct L; congruence|].
      rewrite odd_rval. reflexivity.
    - destruct (Z.eqb_spec (2 * r) s); [lia|reflexivity]. }
  rewrite Par.
  destruct ((s <? 2 * r) || ((2 * r =? s) && Z.odd (rval rs * 10 ^ (Z.of_nat n - zlen rs)))) eqn:U.
  - assert (CE : zlen rs = Z.of_nat n).
    { destruct C as [C|C]; [exact C|]. subst r. change (2 * 0) with 0 in U.
      destruct (Z.ltb_spec s 0); [lia|]. destruct (Z.eqb_spec 0 s); [lia|]. discriminate. }
    pose proof (round_off_ok rs k F (or_intror L)) as RO.
    destruct (round_off rs k) as [rs' k'].
    destruct RO as (R1 & R2 & R3 & R4 & R5 & R6 & R7).
    unfold digits_of. rewrite CE in *. replace (Z.of_nat n - Z.of_nat n) with 0 by ring. change (10 ^ 0) with 1.
    rewrite Z.mul_1_r in *. repeat split; try assumption; try apply R2; try lia.
  - pose proof (strip_ok rs k F L) as RO.
    destruct RO as (R1 & R2 & R3 & R4 & R5 & R6 & R7).
    repeat split; try assumption; try apply R2; try lia.
    replace (k - k + Z.of_nat n - zlen (strip rs))
      with ((k - k + zlen rs - zlen (strip rs)) + (Z.of_nat n - zlen rs)) by ring.
    rewrite Z.pow_add_r by lia. rewrite Z.mul_assoc, R7. reflexivity.
Qed.

(** ** Numerals *)

Lemma value_snoc : forall r a d, value r (a ++ [d]) = value r a * r + d.
Proof.
  intros. unfold value. rewrite fold_left_app. reflexivity.
Qed.

Lemma value_app : forall r a b, 
  value r (a ++ b) = value r a * r ^ zlen b + value r b.
Proof.
  intros r a b. revert a. induction b as [|d t IH] using rev_ind; intros a.
  - rewrite app_nil_r. change (r ^ zlen []) with 1. change (value r []) with 0. ring.
  - rewrite app_assoc, !value_snoc, IH.
    unfold zlen. rewrite app_length. cbn [length]. rewrite Nat2Z.inj_add.
    rewrite Z.pow_add_r by lia. change (Z.of_nat 1) with 1. rewrite Z.pow_1_r. ring.
Qed.

Lemma value_rev : forall rs, value 10 (rev rs) = rval rs.
Proof.
  induction rs as [|d t IH]; [reflexivity|].
  cbn [rev rval]. rewrite value_app, IH. change (zlen [d]) with 1.
  change (value 10 [d]) with (0 * 10 + d). change (10 ^ 1) with 10. ring.
Qed.

Lemma value_single : forall r d, value r [d] = d.
Proof. intros. unfold value. cbn [fold_left]. ring. Qed.

Lemma value_nonneg : forall r ds, 2 <= r -> digit_list r ds -> 0 <= value r ds.
Proof.
  intros r ds H. induction ds as [|d t IH] using rev_ind; intros F.
  - cbn. lia.
  - rewrite value_snoc. apply Forall_app in F. destruct F as [F1 F2].
    inversion F2; subst. specialize (IH F1). nia.
Qed.

Lemma value_pos : forall r ds, 2 <= r -> digit_list r ds -> ds <> [] -> hd 0 ds <> 0 ->
  1 <= value r ds.
Proof.
  intros r ds H. induction ds as [|d t IH] using rev_ind; intros F N Z0.
  - congruence.
  - rewrite value_snoc. apply Forall_app in F. destruct F as [F1 F2].
    inversion F2; subst. destruct t as [|x t].
    + cbn in Z0. cbn. lia.
    + assert (1 <= value r (x :: t)) by (apply IH; [assumption|discriminate|exact Z0]). nia.
Qed.

Lemma numeral_from_value : forall r, 2 <= r -> forall fuel ds,
  digit_list r ds -> ds <> [] -> (hd 0 ds <> 0 \/ length ds = 1%nat) ->
  value r ds < 2 ^ Z.of_nat fuel -> (1 <= fuel)%nat ->
  numeral_from fuel r (value r ds) = ds.
Proof.
  intros r Hr. induction fuel as [|f IH]; intros ds F N Z0 B Fu; [lia|].
  destruct ds as [|d t _] using rev_ind; [congruence|].
  rewrite value_snoc in *. apply Forall_app in F. destruct F as [F1 F2].
  inversion F2 as [|? ? D]; subst.
  cbn [numeral_from].
  destruct t as [|x t].
  - change (value r []) with 0. rewrite Z.mul_0_l, Z.add_0_l.
    destruct (Z.ltb_spec d r); [reflexivity|lia].
  - assert (HX : hd 0 (x :: t) <> 0).
    { destruct Z0 as [Z0|Z0]; [exact Z0|]. rewrite app_length in Z0. cbn in Z0. lia. }
    pose proof (value_pos r (x :: t) Hr F1 ltac:(discriminate) HX) as VP.
    destruct (Z.ltb_spec (value r (x :: t) * r + d) r); [nia|].
    destruct (divmod_unique (value r (x :: t) * r + d) (value r (x :: t)) r d) as [-> ->]; try lia.
    rewrite Nat2Z.inj_succ, Z.pow_succ_r in B by lia.
    f_equal. apply IH; try assumption; try discriminate.
    + now left.
    + nia.
    + destruct f; [|lia]. change (2 ^ Z.of_nat 0) with 1 in B. nia.
Qed.

Lemma numeral_value : forall r ds, 2 <= r -> digit_list r ds -> ds <> [] ->
  (hd 0 ds <> 0 \/ length ds = 1%nat) -> numeral r (value r ds) = ds.
Proof.
  intros r ds Hr F N Z0. unfold numeral. apply numeral_from_value; try assumption; try lia.
  pose proof (value_nonneg r ds Hr F) as V.
  destruct (Z.eq_dec (value r ds) 0) as [E|E].
  - rewrite E. cbn. lia.
  - apply log_fuel. lia.
Qed.

Lemma numeral_from_ok : forall r, 2 <= r -> forall fuel n, 0 <= n < 2 ^ Z.of_nat fuel -> (1 <= fuel)%nat ->
  value r (numeral_from fuel r n) = n /\ digit_list r (numeral_from fuel r n) /\
  numeral_from fuel r n <> [] /\ (0 < n -> hd 0 (numeral_from fuel r n) <> 0).
Proof.
  intros r Hr. induction fuel as [|f IH]; intros n Hn Fu; [lia|].
  cbn [numeral_from]. destruct (Z.ltb_spec n r) as [L|L].
  - rewrite value_single. repeat split; try discriminate; try (constructor; [lia|constructor]). cbn; lia.
  - rewrite Nat2Z.inj_succ, Z.pow_succ_r in Hn by lia.
    pose proof (Z.div_mod n r ltac:(lia)) as E.
    pose proof (Z.mod_pos_bound n r ltac:(lia)) as M.
    assert (Q1 : 1 <= n / r) by (apply Z.div_le_lower_bound; lia).
    assert (Q2 : n / r < 2 ^ Z.of_nat f) by (apply Z.div_lt_upper_bound; nia).
    destruct (IH (n / r)) as (I1 & I2 & I3 & I4); try lia.
    { destruct f; [|lia]. change (2 ^ Z.of_nat 0) with 1 in Q2. lia. }
    rewrite value_snoc, I1. repeat split.
    + lia.
    + apply Forall_app. split; [exact I2|]. constructor; [lia|constructor].
    + intros C. apply app_eq_nil in C. destruct C as [_ C]. discriminate.
    + intros _. destruct (numeral_from f r (n / r)); [congruence|]. apply I4. lia.
Qed.

Lemma numeral_ok : forall r n, 2 <= r -> 0 <= n ->
  value r (numeral r n) = n /\ digit_list r (numeral r n) /\
  numeral r n <> [] /\ (0 < n -> hd 0 (numeral r n) <> 0).
Proof.
  intros r n Hr Hn. unfold numeral. apply numeral_from_ok; try lia.
  destruct (Z.eq_dec n 0) as [->|N]; [cbn; lia|].
  split; [lia|]. apply log_fuel. lia.
Qed.

Lemma map_ch : forall ds, digit_list 10 ds -> map ch ds = text ds.
Proof.
  intros ds F. unfold text. apply map_ext_in. intros d I.
  unfold digit_list in F. rewrite Forall_forall in F. specialize (F d I).
  unfold ch, character. destruct (Z.ltb_spec d 10); lia.
Qed.

Lemma digits_zeros : forall n, digit_list 10 (repeat 0 n).
Proof. induction n; cbn; constructor; [lia|assumption]. Qed.

Lemma text_zeros : forall n, text (repeat 0 n) = repeat 48 n.
Proof. induction n as [|n IH]; [reflexivity|]. cbn [repeat]. unfold text in *. cbn [map]. rewrite IH. reflexivity. Qed.

Lemma value_zeros : forall n, value 10 (repeat 0 n) = 0.
Proof.
  induction n as [|n IH]; [reflexivity|].
  change (repeat 0 (S n)) with ([0] ++ repeat 0 n). rewrite value_app, IH. cbn. ring.
Qed.

(** The text of digits with zeros behind. *)
Lemma decimal_zeros : forall ds z, digit_list 10 ds -> ds <> [] -> hd 0 ds <> 0 -> 
  decimal (value 10 ds * 10 ^ Z.of_nat z) = text ds ++ repeat 48 z.
Proof.
  intros ds z F N H. unfold decimal.
  replace (value 10 ds * 10 ^ Z.of_nat z) with (value 10 (ds ++ repeat 0 z)).
  - rewrite numeral_value.
    + unfold text. rewrite map_app. fold (text ds). fold (text (repeat 0 z)).
      rewrite text_zeros. reflexivity.
    + lia.
    + apply Forall_app. split; [assumption|apply digits_zeros].
    + destruct ds; [congruence|discriminate].
    + left. destruct ds; [congruence|exact H].
  - rewrite value_app, value_zeros. unfold zlen. rewrite repeat_length. ring.
Qed.

(** ** Copy loops *)

Lemma copy_ok : forall n l, (n <= length l)%nat ->
  copy n l = Some (map ch (firstn n l), skipn n l).
Proof.
  induction n as [|n IH]; intros l H; [reflexivity|].
  destruct l as [|d t]; [cbn in H; lia|].
  cbn [copy firstn skipn map]. cbn [length] in H. rewrite IH by lia. reflexivity.
Qed.

Lemma copy_pad_nil : forall n, copy_pad n [] = (repeat 48 n, []).
Proof. induction n as [|n IH]; [reflexivity|]. cbn [copy_pad repeat]. rewrite IH. reflexivity. Qed.

Lemma copy_pad_ok : forall n l,
  copy_pad n l = (map ch (firstn n l) ++ repeat 48 (n - length l), skipn n l).
Proof.
  induction n as [|n IH]; intros l.
  - reflexivity.
  - destruct l as [|d t].
    + rewrite copy_pad_nil. reflexivity.
    + cbn [copy_pad firstn skipn map length]. rewrite IH.
      replace (S n - S (length t))%nat with (n - length t)%nat by lia. reflexivity.
Qed.

Lemma decimal_small : forall n, 0 <= n < 10 -> decimal n = [ch n].
Proof.
  intros n H. unfold decimal. rewrite <- (value_single 10 n) at 1.
  rewrite numeral_value; try lia.
  - rewrite <- map_ch; [reflexivity|]. constructor; [lia|constructor].
  - constructor; [lia|constructor].
  - discriminate.
  - now right.
Qed.

Lemma decimal_step : forall n, 10 <= n -> decimal n = decimal (n / 10) ++ [ch (n mod 10)].
Proof.
  intros n H. unfold decimal.
  pose proof (Z.div_mod n 10 ltac:(lia)) as E.
  pose proof (Z.mod_pos_bound n 10 ltac:(lia)) as M.
  assert (Q1 : 1 <= n / 10) by (apply Z.div_le_lower_bound; lia).
  destruct (numeral_ok 10 (n / 10)) as (V & F & N & H0); try lia.
  specialize (H0 ltac:(lia)).
  assert (EV : value 10 (numeral 10 (n / 10) ++ [n mod 10]) = n).
  { rewrite value_snoc, V. lia. }
  rewrite <- EV at 1. rewrite numeral_value; try lia.
  - unfold text. rewrite map_app. f_equal. cbn [map]. unfold character, ch.
    destruct (Z.ltb_spec (n mod 10) 10); [reflexivity|lia].
  - apply Forall_app. split; [assumption|]. constructor; [lia|constructor].
  - intros C. apply app_eq_nil in C. destruct C as [_ C]. discriminate.
  - left. destruct (numeral 10 (n / 10)); [congruence|exact H0].
Qed.

Lemma exponent_ok : forall nv, -999 < nv <= 1000 -> exponent nv = exponent_text (nv - 1).
Proof.
  intros nv H. unfold exponent, exponent_text.
  f_equal. f_equal.
  assert (EL : (if nv - 1 <? 0 then 1 - nv else nv - 1) = Z.abs (nv - 1)).
  { destruct (Z.ltb_spec (nv - 1) 0); lia. }
  rewrite EL. assert (B : 0 <= Z.abs (nv - 1) < 1000) by lia.
  set (n := Z.abs (nv - 1)) in *. clearbody n. clear EL H nv.
  cbn [grow]. change (10 * 10) with 100. change (100 * 10) with 1000.
  destruct (Z.leb_spec 10 n); [destruct (Z.leb_spec 100 n); [destruct (Z.leb_spec 1000 n); [lia|]|]|].
  - change (1000 / 10) with 100. cbn [emit]. change (0 <? 100) with true.
    change (100 / 10) with 10. change (0 <? 10) with true. change (10 / 10) with 1.
    change (0 <? 1) with true. change (1 / 10) with 0. change (0 <? 0) with false.
    rewrite (decimal_step n) by lia. rewrite (decimal_step (n / 10)) by (apply Z.div_le_lower_bound; lia).
    rewrite Z.div_div by lia. change (10 * 10) with 100.
    rewrite decimal_small by (split; [apply Z.div_pos; lia|apply Z.div_lt_upper_bound; lia]).
    cbn [app]. f_equal. rewrite Z.div_1_r.
    f_equal; [|f_equal]; f_equal.
    + pose proof (Z.div_mod n 100 ltac:(lia)). pose proof (Z.mod_pos_bound n 100 ltac:(lia)).
      pose proof (Z.div_mod n 10 ltac:(lia)). pose proof (Z.mod_pos_bound n 10 ltac:(lia)).
      pose proof (Z.div_mod (n mod 100) 10 ltac:(lia)). pose proof (Z.mod_pos_bound (n mod 100) 10 ltac:(lia)).
      pose proof (Z.div_mod (n / 10) 10 ltac:(lia)). pose proof (Z.mod_pos_bound (n / 10) 10 ltac:(lia)).
      rewrite Z.div_div in * by lia. change (10 * 10) with 100 in *. lia.
    + pose proof (Z.div_mod n 100 ltac:(lia)). pose proof (Z.mod_pos_bound n 100 ltac:(lia)).
      pose proof (Z.div_mod n 10 ltac:(lia)). pose proof (Z.mod_pos_bound n 10 ltac:(lia)).
      pose proof (Z.div_mod (n mod 100) 10 ltac:(lia)). pose proof (Z.mod_pos_bound (n mod 100) 10 ltac:(lia)).
      lia.
  - change (100 / 10) with 10. cbn [emit]. change (0 <? 10) with true.
    change (10 / 10) with 1. change (0 <? 1) with true. change (1 / 10) with 0. change (0 <? 0) with false.
    rewrite (decimal_step n) by lia.
    rewrite decimal_small by (split; [apply Z.div_pos; lia|apply Z.div_lt_upper_bound; lia]).
    rewrite Z.div_1_r. reflexivity.
  - change (10 / 10) with 1. cbn [emit]. change (0 <? 1) with true. change (1 / 10) with 0.
    change (0 <? 0) with false. rewrite decimal_small by lia. rewrite Z.div_1_r. reflexivity.
Qed.

Lemma index_text_ok : forall n, 0 <= n < 10 ^ 10 -> index_text n = decimal n.
Proof.
  assert (G : forall fuel n, 0 <= n < 10 ^ Z.of_nat fuel -> (1 <= fuel)%nat -> index_digits fuel n = decimal n).
  { induction fuel as [|f IH]; intros n H Fu; [lia|].
    cbn [index_digits]. destruct (Z.ltb_spec n 10).
    - rewrite decimal_small by lia. reflexivity.
    - rewrite Nat2Z.inj_succ, Z.pow_succ_r in H by lia.
      rewrite decimal_step by lia. rewrite IH; [reflexivity| |].
      + split; [apply Z.div_pos; lia|apply Z.div_lt_upper_bound; lia].
      + destruct f; [|lia]. change (10 ^ Z.of_nat 0) with 1 in H. lia. }
  intros n H. apply (G 10%nat); [exact H|lia].
Qed.
