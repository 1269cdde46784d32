(** Proofs about ISO date text. *)
From Coq Require Import ZArith List Bool Lia ZifyBool.
Import ListNotations.
From Verif Require Import DateModel DateSpec DateProofs DateTextModel.
Open Scope Z_scope.
Ltac Zify.zify_post_hook ::= Z.div_mod_to_equations.

Definition digits (l : list Z) : Prop := Forall (fun c => is_digit c = true) l.
Definition dval (l : list Z) (v : Z) : Z := fold_left (fun v c => v * 10 + (c - 48)) l v.

Lemma dval_app l l' v : dval (l ++ l') v = dval l' (dval l v).
Proof. apply fold_left_app. Qed.

Lemma dec_digits_spec fuel : forall n acc,
  (fuel <> 0)%nat -> 0 <= n < 2 ^ Z.of_nat fuel ->
  exists l, dec_digits fuel n acc = l ++ acc /\ digits l /\ l <> [] /\
    forall v, dval l v = v * 10 ^ Z.of_nat (length l) + n.
Proof.
  induction fuel as [|fuel IH]; intros n acc Hf H; [lia|]. cbn [dec_digits].
  assert (D : is_digit (48 + n mod 10) = true) by (unfold is_digit; lia).
  destruct (Z.eqb_spec (n / 10) 0) as [E|E].
  - exists [48 + n mod 10]. split; [reflexivity|]. split; [repeat constructor; exact D|].
    split; [discriminate|]. intros v. unfold dval. cbn [fold_left length]. change (10 ^ Z.of_nat 1) with 10. lia.
  - assert (P : 2 ^ Z.of_nat (S fuel) = 2 * 2 ^ Z.of_nat fuel).
    { rewrite Nat2Z.inj_succ, Z.pow_succ_r by lia. reflexivity. }
    assert (fuel <> 0)%nat.
    { intros ->. cbn in H. lia. }
    destruct (IH (n / 10) ((48 + n mod 10) :: acc)) as (l & E1 & E2 & E3 & E4); auto.
    { lia. }
    exists (l ++ [48 + n mod 10]). split; [rewrite E1, <- app_assoc; reflexivity|].
    split; [apply Forall_app; split; [exact E2|repeat constructor; exact D]|].
    split; [destruct l; discriminate|].
    intros v. rewrite dval_app, E4. unfold dval. cbn [fold_left]. rewrite app_length, Nat2Z.inj_add.
    rewrite Z.pow_add_r by lia. cbn [length]. change (10 ^ Z.of_nat 1) with 10.
    generalize (10 ^ Z.of_nat (length l)). intros p. nia.
Qed.

Lemma dec_spec n : 0 <= n ->
  digits (dec n) /\ dec n <> [] /\ forall v, dval (dec n) v = v * 10 ^ Z.of_nat (length (dec n)) + n.
Proof.
  intros H. unfold dec.
  destruct (dec_digits_spec (S (Z.to_nat (Z.log2 n))) n []) as (l & E & A & B & C); [lia| |].
  - split; [exact H|]. pose proof (Z.log2_nonneg n).
    rewrite Nat2Z.inj_succ, Z2Nat.id by lia.
    destruct (Z.eq_dec n 0) as [->|N]; [reflexivity|]. apply Z.log2_spec. lia.
  - rewrite E, app_nil_r. auto.
Qed.

Lemma zeros_digits k : digits (repeat 48 k).
Proof. apply Forall_forall. intros x H. apply repeat_spec in H. subst. reflexivity. Qed.

Lemma dval_zeros k v : dval (repeat 48 k) v = v * 10 ^ Z.of_nat k.
Proof.
  revert v. induction k as [|k IH]; intros v.
  - cbn. lia.
  - cbn [repeat]. change (dval (48 :: repeat 48 k) v) with (dval (repeat 48 k) (v * 10 + (48 - 48))).
    rewrite IH, Nat2Z.inj_succ, Z.pow_succ_r by lia. ring.
Qed.

Lemma fmt0_nonneg w n : 0 <= n ->
  digits (fmt0 w n) /\ fmt0 w n <> [] /\ dval (fmt0 w n) 0 = n.
Proof.
  intros H. unfold fmt0. rewrite (proj2 (Z.ltb_ge _ _)) by lia.
  destruct (dec_spec n H) as (A & B & C). split; [|split].
  - apply Forall_app. split; [apply zeros_digits|exact A].
  - intros E. apply app_eq_nil in E. tauto.
  - rewrite dval_app, dval_zeros, C. lia.
Qed.

Lemma fmt0_neg w n : n < 0 ->
  exists l, fmt0 w n = 45 :: l /\ digits l /\ l <> [] /\ dval l 0 = - n.
Proof.
  intros H. unfold fmt0. rewrite (proj2 (Z.ltb_lt _ _)) by lia.
  destruct (dec_spec (- n)) as (A & B & C); [lia|].
  eexists. split; [reflexivity|]. split; [|split].
  - apply Forall_app. split; [apply zeros_digits|exact A].
  - intros E. apply app_eq_nil in E. tauto.
  - rewrite dval_app, dval_zeros, C. lia.
Qed.

(** Fixed-width fields. *)
Lemma fmt0_2 n : 0 <= n <= 99 -> fmt0 2 n = [48 + n / 10; 48 + n mod 10].
Proof.
  intros H.
  assert (A : forallb (fun n => if list_eq_dec Z.eq_dec (fmt0 2 n) [48 + n / 10; 48 + n mod 10]
                                then true else false) (zseq 0 100) = true) by (vm_compute; reflexivity).
  rewrite forallb_forall in A. specialize (A n (proj2 (in_zseq 0 100 n) ltac:(lia))).
  cbv beta in A. destruct (list_eq_dec Z.eq_dec (fmt0 2 n) [48 + n / 10; 48 + n mod 10]); [auto|discriminate].
Qed.

Lemma fmt0_3 n : 0 <= n <= 999 -> fmt0 3 n = [48 + n / 100; 48 + n / 10 mod 10; 48 + n mod 10].
Proof.
  intros H.
  assert (A : forallb (fun n => if list_eq_dec Z.eq_dec (fmt0 3 n)
                   [48 + n / 100; 48 + n / 10 mod 10; 48 + n mod 10]
                                then true else false) (zseq 0 1000) = true) by (vm_compute; reflexivity).
  rewrite forallb_forall in A. specialize (A n (proj2 (in_zseq 0 1000 n) ltac:(lia))).
  cbv beta in A. destruct (list_eq_dec Z.eq_dec (fmt0 3 n) _); [auto|discriminate].
Qed.

(** *** Number scanner *)
Lemma dval_mono l v : digits l -> 0 <= v -> v <= dval l v.
Proof.
  intros D. revert v. induction D as [|c l Hc D IH]; intros v Hv; [cbn; lia|].
  change (dval (c :: l) v) with (dval l (v * 10 + (c - 48))).
  unfold is_digit in Hc. specialize (IH (v * 10 + (c - 48))). lia.
Qed.

Lemma number_loop_all l c rest rlen v :
  digits l -> is_digit c = false -> 0 <= v -> dval l v <= INT_MAX -> 0 <= rlen -> (l = [] -> rlen <> 0) ->
  number_loop (l ++ c :: rest) (-1) rlen v = NVal (dval l v) (c :: rest).
Proof.
  intros D Hc. revert rlen v. induction D as [|x l Hx D IH]; intros rlen v Hv Hm Hr Hn; cbn [app number_loop].
  - rewrite Hc. cbn [negb]. destruct (Z.eqb_spec rlen 0); [exfalso; apply Hn; auto|]. reflexivity.
  - rewrite Hx. cbn [negb].
    change (dval (x :: l) v) with (dval l (v * 10 + (x - 48))) in *.
    assert (0 <= v * 10 + (x - 48)) by (unfold is_digit in Hx; lia).
    pose proof (dval_mono l (v * 10 + (x - 48)) D ltac:(lia)).
    destruct (Z.ltb_spec INT_MAX (v * 10 + (x - 48))); [lia|].
    cbn [Z.ltb andb]. change (0 <? -1) with false. cbn [andb].
    apply IH; auto; lia.
Qed.

Lemma number_unlimited l c rest :
  digits l -> l <> [] -> is_digit c = false -> dval l 0 <= INT_MAX ->
  number (l ++ c :: rest) (-1) = ROk (dval l 0) (c :: rest).
Proof.
  intros D N Hc Hm. unfold number, parse_date_number.
  rewrite number_loop_all; auto; try lia; try (intros; contradiction).
  pose proof (dval_mono l 0 D ltac:(lia)).
  rewrite (proj2 (Z.ltb_ge _ _)) by lia. reflexivity.
Qed.

Lemma number_2 n rest : 0 <= n <= 99 -> number (fmt0 2 n ++ rest) 2 = ROk n rest.
Proof.
  intros H. rewrite fmt0_2 by exact H. unfold number, parse_date_number. cbn [app number_loop].
  assert (D1 : is_digit (48 + n / 10) = true) by (unfold is_digit; lia).
  assert (D2 : is_digit (48 + n mod 10) = true) by (unfold is_digit; lia).
  rewrite D1, D2. cbn [negb].
  rewrite (proj2 (Z.ltb_ge INT_MAX _)) by (unfold INT_MAX; lia).
  change ((0 <? 2) && (2 <=? 0 + 1)) with false. cbv iota.
  rewrite (proj2 (Z.ltb_ge INT_MAX _)) by (unfold INT_MAX; lia).
  change ((0 <? 2) && (2 <=? 0 + 1 + 1)) with true. cbv iota.
  replace ((0 * 10 + (48 + n / 10 - 48)) * 10 + (48 + n mod 10 - 48)) with n by lia.
  rewrite (proj2 (Z.ltb_ge n 0)) by lia. reflexivity.
Qed.

Lemma number_3 n rest : 0 <= n <= 999 -> number (fmt0 3 n ++ rest) 3 = ROk n rest.
Proof.
  intros H. rewrite fmt0_3 by exact H. unfold number, parse_date_number. cbn [app number_loop].
  assert (D0 : is_digit (48 + n / 100) = true) by (unfold is_digit; lia).
  assert (D1 : is_digit (48 + n / 10 mod 10) = true) by (unfold is_digit; lia).
  assert (D2 : is_digit (48 + n mod 10) = true) by (unfold is_digit; lia).
  rewrite D0, D1, D2. cbn [negb].
  rewrite (proj2 (Z.ltb_ge INT_MAX _)) by (unfold INT_MAX; lia).
  change ((0 <? 3) && (3 <=? 0 + 1)) with false. cbv iota.
  rewrite (proj2 (Z.ltb_ge INT_MAX _)) by (unfold INT_MAX; lia).
  change ((0 <? 3) && (3 <=? 0 + 1 + 1)) with false. cbv iota.
  rewrite (proj2 (Z.ltb_ge INT_MAX _)) by (unfold INT_MAX; lia).
  change ((0 <? 3) && (3 <=? 0 + 1 + 1 + 1)) with true. cbv iota.
  replace (((0 * 10 + (48 + n / 100 - 48)) * 10 + (48 + n / 10 mod 10 - 48)) * 10
           + (48 + n mod 10 - 48)) with n by lia.
  rewrite (proj2 (Z.ltb_ge n 0)) by lia. reflexivity.
Qed.

Section P.
  Variable is_ws is_alpha : Z -> bool.
  Variable tza : Z.
  Hypothesis ws_ascii : forall c, 33 <= c <= 126 -> is_ws c = false.
  Hypothesis alpha_digit : forall c, 48 <= c <= 57 \/ c = 45 -> is_alpha c = false.

  Lemma digit_range c : is_digit c = true -> 48 <= c <= 57.
  Proof. unfold is_digit. lia. Qed.

  Lemma parse_year_fmt y rest : Z.abs y <= 1000000 ->
    parse_year is_ws (fmt0 4 y ++ 45 :: rest) = ROk y (45 :: rest).
  Proof.
    intros H. unfold parse_year. destruct (Z.le_gt_cases 0 y) as [P|P].
    - destruct (fmt0_nonneg 4 y P) as (A & B & C).
      destruct (fmt0 4 y) as [|c l] eqn:E; [congruence|]. cbn [app get].
      assert (Dc : 48 <= c <= 57) by (apply digit_range; inversion A; auto).
      destruct (Z.eqb_spec c 45); [lia|]. destruct (Z.eqb_spec c 43); [lia|].
      unfold unget. rewrite (proj2 (Z.leb_le 0 c)) by lia.
      change (c :: l ++ 45 :: rest) with ((c :: l) ++ 45 :: rest).
      rewrite number_unlimited; auto; [|rewrite C; unfold INT_MAX; lia].
      cbn [bind]. rewrite C. reflexivity.
    - destruct (fmt0_neg 4 y P) as (l & E & A & B & C). rewrite E. cbn [app get].
      change (45 =? 45) with true. cbv iota.
      destruct l as [|c l]; [congruence|]. cbn [app eatup_space].
      assert (Dc : 48 <= c <= 57) by (apply digit_range; inversion A; auto).
      rewrite ws_ascii by lia. unfold unget. rewrite (proj2 (Z.leb_le 0 c)) by lia.
      change (c :: l ++ 45 :: rest) with ((c :: l) ++ 45 :: rest).
      rewrite number_unlimited; auto; [|rewrite C; unfold INT_MAX; lia].
      cbn [bind]. change (-1 =? -1) with true. cbv iota. rewrite C.
      destruct (Z.eqb_spec (- y) 0); [lia|]. rewrite Z.opp_involutive. reflexivity.
  Qed.

  Lemma unget_pos c i : 0 <= c -> unget c i = c :: i.
  Proof. intros H. unfold unget. rewrite (proj2 (Z.leb_le _ _)) by lia. reflexivity. Qed.

  Theorem iso_parse t :
    Z.abs t <= 8640000000000000 ->
    exists text, to_iso_string t = Some text /\
      date_parse is_ws is_alpha tza text = PVal (make_date (day t) (tod t)).
  Proof.
    intros Ht. unfold to_iso_string.
    destruct (year_from_time_spec t) as (y & Ey & Y).
    destruct (ymd_spec t y Y) as (m & d & M & F & R).
    assert (F0 := F). unfold ymd_from_time in F. rewrite Ey in F.
    destruct (month_from_time t) as [m'|] eqn:Em; [|discriminate].
    destruct (date_from_time t) as [d'|] eqn:Ed; [|discriminate].
    injection F as -> ->. rewrite Ey. eexists. split; [reflexivity|].
    destruct (md_of_valid (lpz y) _ (lpz_01 y) R) as (m1 & d1 & M1 & Am & Bd & _).
    rewrite M in M1. injection M1 as <- <-.
    assert (Bd' : d <= 31).
    { unfold mlen in Bd. destruct (lpz_01 y);
        destruct (m =? 1), ((m =? 3) || (m =? 5) || (m =? 8) || (m =? 10)); lia. }
    assert (Hd : Z.abs (day t) <= 100000000) by (unfold day, ms_per_day; lia).
    assert (Hy : Z.abs y <= 1000000).
    { unfold year_of in Y. rewrite dfy_step in Y.
      assert (Hl : (if leap y then 366 else 365) <= 366) by (destruct (leap y); lia).
      destruct (Z.le_ge_cases 1970 y) as [H|H].
      - pose proof (dfy_bounds 1970 (y - 1970)) as B. replace (1970 + (y - 1970)) with y in B by lia.
        rewrite dfy_1970 in B. lia.
      - pose proof (dfy_bounds y (1970 - y)) as B. replace (y + (1970 - y)) with 1970 in B by lia.
        rewrite dfy_1970 in B. lia. }
    pose proof (time_fields_range t) as (Rh & Rm & Rs & Rms).
    set (text2 := fmt0 2 (m + 1) ++ [45] ++ fmt0 2 d ++ [84]
          ++ fmt0 2 (hour_from_time t) ++ [58] ++ fmt0 2 (min_from_time t) ++ [58]
          ++ fmt0 2 (sec_from_time t) ++ [46] ++ fmt0 3 (ms_from_time t) ++ [90]).
    change (fmt0 4 y ++ [45] ++ text2) with (fmt0 4 y ++ 45 :: text2).
    (* first character *)
    assert (First : exists c l, fmt0 4 y ++ 45 :: text2 = c :: l /\ (48 <= c <= 57 \/ c = 45)).
    { destruct (Z.le_gt_cases 0 y) as [P|P].
      - destruct (fmt0_nonneg 4 y P) as (A & B & _).
        destruct (fmt0 4 y) as [|c l]; [congruence|]. exists c, (l ++ 45 :: text2).
        split; [reflexivity|]. left. apply digit_range. inversion A; auto.
      - destruct (fmt0_neg 4 y P) as (l & E & _). rewrite E. exists 45, (l ++ 45 :: text2). auto. }
    destruct First as (c & l & Efirst & Hc).
    unfold date_parse. rewrite Efirst. cbn [eatup_space].
    rewrite ws_ascii by lia. destruct (Z.eqb_spec c (-1)); [lia|].
    rewrite alpha_digit by exact Hc. rewrite unget_pos by lia. rewrite <- Efirst.
    unfold parse_iso_fields. rewrite parse_year_fmt by exact Hy.
    cbn [bind get]. change (45 =? 45) with true. cbv iota.
    unfold text2. rewrite number_2 by lia. cbn [bind app get]. change (45 =? 45) with true. cbv iota.
    rewrite number_2 by lia. cbn [bind app get]. change (84 =? 84) with true. cbv iota.
    unfold parse_hour. rewrite number_2 by lia. cbn [bind app get]. change (58 =? 58) with true. cbv iota.
    rewrite number_2 by lia. cbn [bind app get]. change (58 =? 58) with true. cbv iota.
    rewrite number_2 by lia. cbn [bind app get]. change (46 =? 46) with true. cbv iota.
    rewrite number_3 by lia. cbn [bind app get]. rewrite unget_pos by lia.
    cbn [bind app get]. change (90 =? 90) with true. cbv iota. cbn [eatup_space].
    change (negb (-1 =? -1)) with false. cbv iota.
    destruct (Z.ltb_spec (m + 1) 1); [lia|]. destruct (Z.ltb_spec 12 (m + 1)); [lia|]. cbn [orb].
    replace (m + 1 - 1) with m by lia.
    assert (Hmd : exists md, month_days m = Some md /\
                  (if m + 1 =? 2 then md + is_leap_year y else md) = mlen (lpz y) m).
    { rewrite is_leap_spec. fold (lpz y).
      assert (Cs : m = 0 \/ m = 1 \/ m = 2 \/ m = 3 \/ m = 4 \/ m = 5 \/ m = 6 \/ m = 7 \/ m = 8
                   \/ m = 9 \/ m = 10 \/ m = 11) by lia.
      repeat (destruct Cs as [->|Cs]; [eexists; split; reflexivity|]).
      subst m. eexists; split; reflexivity. }
    destruct Hmd as (md & E1 & E2). rewrite E1, E2.
    destruct (Z.ltb_spec (mlen (lpz y) m) d); [lia|].
    destruct (Z.ltb_spec 23 (hour_from_time t)); [lia|].
    destruct (Z.ltb_spec 59 (min_from_time t)); [lia|].
    destruct (Z.ltb_spec 59 (sec_from_time t)); [lia|]. cbn [orb].
    change ((23 <? 0) || (59 <? 0)) with false. cbv iota.
    rewrite (time_value_fields_rebuild t y m d Ht F0).
    fold (tod t). cbv zeta.
    replace (make_date (day t) (tod t) - 1 * (0 * ms_per_hour + 0 * ms_per_minute))
      with (make_date (day t) (tod t)) by lia.
    unfold time_clip.
    pose proof (make_time_range _ _ _ _ (time_fields_range t)) as Rt. fold (tod t) in Rt.
    assert (Hb : Z.abs (make_date (day t) (tod t)) <= 8640000000000000).
    { destruct (Z.eq_dec (day t) 100000000) as [E|E].
      - assert (t = 8640000000000000) by (unfold day, ms_per_day in E; lia). subst t.
        vm_compute. congruence.
      - unfold make_date. unfold ms_per_day in *. lia. }
    destruct (Z.ltb_spec 8640000000000000 (Z.abs (make_date (day t) (tod t)))); [lia|]. reflexivity.
  Qed.

  Theorem iso_round_trip_iff t :
    Z.abs t <= 8640000000000000 ->
    exists text, to_iso_string t = Some text /\
      (date_parse is_ws is_alpha tza text = PVal t <-> 0 <= t \/ t mod ms_per_hour = 0).
  Proof.
    intros Ht. destruct (iso_parse t Ht) as (text & E & P). exists text. split; [exact E|].
    rewrite P, <- time_fields_recombine_iff.
    split.
    - intros H. injection H as H. unfold make_date, day, ms_per_day in *. lia.
    - intros H. f_equal. rewrite H. unfold make_date, day, ms_per_day. lia.
  Qed.
End P.
