(** Proofs about the calendar arithmetic. *)
From Coq Require Import ZArith List Bool Lia ZifyBool Zquot.
Import ListNotations.
From Verif Require Import DateModel DateSpec.
Open Scope Z_scope.
Ltac Zify.zify_post_hook ::= Z.div_mod_to_equations.

Lemma rem_eqb_mod y n : 0 < n -> (Z.rem y n =? 0) = (y mod n =? 0).
Proof.
  intros H. apply Bool.eq_true_iff_eq. rewrite !Z.eqb_eq.
  rewrite Z.rem_divide, Z.mod_divide by lia. tauto.
Qed.

Lemma days_in_year_leap y : days_in_year y = if leap y then 366 else 365.
Proof.
  unfold days_in_year, leap. rewrite !rem_eqb_mod by lia.
  destruct (Z.eqb_spec (y mod 4) 0); destruct (Z.eqb_spec (y mod 100) 0);
    destruct (Z.eqb_spec (y mod 400) 0); simpl; try reflexivity; exfalso; lia.
Qed.

Lemma is_leap_spec y : is_leap_year y = if leap y then 1 else 0.
Proof. unfold is_leap_year. rewrite days_in_year_leap. destruct (leap y); reflexivity. Qed.

Lemma dfy_step y : day_from_year (y + 1) = day_from_year y + (if leap y then 366 else 365).
Proof.
  unfold day_from_year, leap.
  assert (A : (y + 1 - 1969) / 4 = (y - 1969) / 4 + (if y mod 4 =? 0 then 1 else 0))
    by (destruct (Z.eqb_spec (y mod 4) 0); lia).
  assert (B : (y + 1 - 1901) / 100 = (y - 1901) / 100 + (if y mod 100 =? 0 then 1 else 0))
    by (destruct (Z.eqb_spec (y mod 100) 0); lia).
  assert (C : (y + 1 - 1601) / 400 = (y - 1601) / 400 + (if y mod 400 =? 0 then 1 else 0))
    by (destruct (Z.eqb_spec (y mod 400) 0); lia).
  rewrite A, B, C.
  assert (D : y mod 400 = 0 -> y mod 100 = 0) by lia.
  assert (E : y mod 100 = 0 -> y mod 4 = 0) by lia.
  destruct (Z.eqb_spec (y mod 4) 0); destruct (Z.eqb_spec (y mod 100) 0);
    destruct (Z.eqb_spec (y mod 400) 0); cbn [andb orb negb];
    clear A B C;
    generalize ((y - 1969) / 4) ((y - 1901) / 100) ((y - 1601) / 400); intros; lia.
Qed.

Lemma dfy_1970 : day_from_year 1970 = 0.
Proof. reflexivity. Qed.

Lemma dfy_bounds y k : 0 <= k ->
  day_from_year y + 365 * k <= day_from_year (y + k) <= day_from_year y + 366 * k.
Proof.
  intros H. revert k H. apply natlike_ind.
  - replace (y + 0) with y by lia. lia.
  - intros k Hk IH. replace (y + Z.succ k) with (y + k + 1) by lia.
    rewrite dfy_step. destruct (leap (y + k)); lia.
Qed.

Lemma dfy_lt y1 y2 : y1 < y2 -> day_from_year (y1 + 1) <= day_from_year y2.
Proof.
  intros H. pose proof (dfy_bounds (y1 + 1) (y2 - (y1 + 1))) as B.
  replace (y1 + 1 + (y2 - (y1 + 1))) with y2 in B by lia. lia.
Qed.

Definition year_of (d y : Z) : Prop := day_from_year y <= d < day_from_year (y + 1).

Lemma year_of_unique d y1 y2 : year_of d y1 -> year_of d y2 -> y1 = y2.
Proof.
  intros A B. destruct (Z.lt_total y1 y2) as [L|[L|L]]; auto.
  - apply dfy_lt in L. unfold year_of in *. lia.
  - apply dfy_lt in L. unfold year_of in *. lia.
Qed.

Lemma tfy_le y t : time_from_year y <= t <-> day_from_year y <= day t.
Proof.
  unfold time_from_year, day, ms_per_day. generalize (day_from_year y). intros D. lia.
Qed.

Lemma tfy_gt y t : t < time_from_year y <-> day t < day_from_year y.
Proof. pose proof (tfy_le y t). lia. Qed.

Lemma year_down_spec fuel t y :
  day t < day_from_year (y + 1) -> 0 <= day t -> (Z.to_nat (y - 1970) < fuel)%nat ->
  exists y', year_down fuel t y = Some y' /\ year_of (day t) y'.
Proof.
  revert y. induction fuel as [|fuel IH]; intros y H1 H2 H3; [lia|]. simpl.
  destruct (Z.leb_spec (time_from_year y) t) as [L|L].
  - exists y. split; [reflexivity|]. apply tfy_le in L. split; assumption.
  - apply tfy_gt in L. apply IH; auto.
    + replace (y - 1 + 1) with y by lia. exact L.
    + assert (1970 < y); [|lia].
      destruct (Z.lt_ge_cases 1970 y) as [G|G]; [exact G|].
      pose proof (dfy_bounds y (1970 - y)) as B. replace (y + (1970 - y)) with 1970 in B by lia.
      rewrite dfy_1970 in B. lia.
Qed.

Lemma year_up_spec fuel t y :
  day_from_year y <= day t -> day t < 0 -> (Z.to_nat (1970 - y) <= fuel)%nat ->
  exists y', year_up fuel t y = Some y' /\ year_of (day t) y'.
Proof.
  revert y. induction fuel as [|fuel IH]; intros y H1 H2 H3.
  - assert (1970 <= y) by lia.
    pose proof (dfy_bounds 1970 (y - 1970)) as B. replace (1970 + (y - 1970)) with y in B by lia.
    rewrite dfy_1970 in B. lia.
  - simpl. destruct (Z.ltb_spec t (time_from_year (y + 1))) as [L|L].
    + apply tfy_gt in L. exists y. split; [reflexivity|]. split; assumption.
    + apply tfy_le in L. apply IH; auto.
      assert (y + 1 < 1970); [|lia].
      destruct (Z.lt_ge_cases (y + 1) 1970) as [G|G]; [exact G|].
      pose proof (dfy_bounds 1970 (y + 1 - 1970)) as B.
      replace (1970 + (y + 1 - 1970)) with (y + 1) in B by lia.
      rewrite dfy_1970 in B. lia.
Qed.

Lemma year_from_time_spec t :
  exists y, year_from_time t = Some y /\ year_of (day t) y.
Proof.
  unfold year_from_time. cbv zeta.
  destruct (Z.leb_spec 0 (day t)) as [H|H].
  - set (d := day t) in *.
    assert (Q : 365 * Z.quot d 365 <= d < 365 * (Z.quot d 365 + 1)).
    { rewrite Z.quot_div_nonneg by lia. lia. }
    apply year_down_spec; auto.
    + pose proof (dfy_bounds 1970 (Z.quot d 365 + 1)) as B.
      replace (1970 + (Z.quot d 365 + 1)) with (Z.quot d 365 + 1970 + 1) in B by lia.
      rewrite dfy_1970 in B. fold d. lia.
    + lia.
  - set (d := day t) in *.
    assert (Q : 365 * (Z.quot d 365 - 1) < d <= 365 * Z.quot d 365).
    { assert (E : Z.quot d 365 = - ((- d) / 365)).
      { rewrite <- (Z.opp_involutive d) at 1. rewrite Z.quot_opp_l by lia.
        rewrite Z.quot_div_nonneg by lia. reflexivity. }
      rewrite E. lia. }
    apply year_up_spec; auto.
    + pose proof (dfy_bounds (Z.quot d 365 + 1970 - 1) (1 - Z.quot d 365)) as B.
      replace (Z.quot d 365 + 1970 - 1 + (1 - Z.quot d 365)) with 1970 in B by lia.
      rewrite dfy_1970 in B. fold d. lia.
    + lia.
Qed.

(** *** Month and day from the day number within the year *)

Definition month_of (d lp : Z) : option Z := month_loop 11 d lp 1.

Definition md_of (d lp : Z) : option (Z * Z) :=
  match month_of d lp with
  | Some m => match month_year_days m with
              | Some md => Some (m, if 1 <? m then d - md + 1 - lp else d - md + 1)
              | None => None
              end
  | None => None
  end.

(** Length of month [m] given the leap flag. *)
Definition mlen (lp m : Z) : Z :=
  if m =? 1 then 28 + lp
  else if (m =? 3) || (m =? 5) || (m =? 8) || (m =? 10) then 30
  else 31.

Lemma mlen_month_len y m : mlen (if leap y then 1 else 0) m = month_len y m.
Proof. unfold mlen, month_len. destruct (m =? 1), (leap y); reflexivity. Qed.

Definition opt_eqb (a b : option (Z * Z)) : bool :=
  match a, b with
  | Some (x, y), Some (x', y') => (x =? x') && (y =? y')
  | None, None => true
  | _, _ => false
  end.

Lemma opt_eqb_eq a b : opt_eqb a b = true -> a = b.
Proof.
  destruct a as [[x y]|], b as [[x' y']|]; simpl; try discriminate; auto.
  rewrite andb_true_iff, !Z.eqb_eq. intros [-> ->]. reflexivity.
Qed.

Fixpoint zseq (a : Z) (n : nat) : list Z :=
  match n with O => [] | S n' => a :: zseq (a + 1) n' end.

Lemma in_zseq a n x : In x (zseq a n) <-> a <= x < a + Z.of_nat n.
Proof.
  revert a. induction n as [|n IH]; intros a; simpl; [lia|]. rewrite IH. lia.
Qed.

Definition md_next (lp : Z) (p : Z * Z) : option (Z * Z) :=
  let '(m, d) := p in
  if d <? mlen lp m then Some (m, d + 1)
  else if m <? 11 then Some (m + 1, 1) else None.

Lemma md_check lp : lp = 0 \/ lp = 1 ->
  md_of 0 lp = Some (0, 1) /\
  md_of (364 + lp) lp = Some (11, 31) /\
  (forall d, 0 <= d < 364 + lp ->
     exists p, md_of d lp = Some p /\ md_of (d + 1) lp = md_next lp p).
Proof.
  intros [->| ->]; (split; [reflexivity|]; split; [reflexivity|]; intros d Hd).
  - pose (chk := fun d => match md_of d 0 with
                  | Some p => opt_eqb (md_of (d + 1) 0) (md_next 0 p) | None => false end).
    assert (A : forallb chk (zseq 0 364) = true) by (vm_compute; reflexivity).
    rewrite forallb_forall in A. specialize (A d (proj2 (in_zseq 0 364 d) ltac:(lia))).
    unfold chk in A. destruct (md_of d 0) as [p|]; [|discriminate].
    exists p. split; [reflexivity|]. apply opt_eqb_eq. exact A.
  - pose (chk := fun d => match md_of d 1 with
                  | Some p => opt_eqb (md_of (d + 1) 1) (md_next 1 p) | None => false end).
    assert (A : forallb chk (zseq 0 365) = true) by (vm_compute; reflexivity).
    rewrite forallb_forall in A. specialize (A d (proj2 (in_zseq 0 365 d) ltac:(lia))).
    unfold chk in A. destruct (md_of d 1) as [p|]; [|discriminate].
    exists p. split; [reflexivity|]. apply opt_eqb_eq. exact A.
Qed.

Lemma md_of_valid lp d : lp = 0 \/ lp = 1 -> 0 <= d <= 364 + lp ->
  exists m dt, md_of d lp = Some (m, dt) /\ 0 <= m <= 11 /\ 1 <= dt <= mlen lp m /\
    exists md, month_year_days m = Some md /\ md + (if 1 <? m then lp else 0) + dt - 1 = d.
Proof.
  intros Hl Hd.
  pose (chk := fun lp d => match md_of d lp with
     | Some (m, dt) => (0 <=? m) && (m <=? 11) && (1 <=? dt) && (dt <=? mlen lp m) &&
        match month_year_days m with
        | Some md => md + (if 1 <? m then lp else 0) + dt - 1 =? d
        | None => false end
     | None => false end).
  assert (A : forallb (chk 0) (zseq 0 365) = true) by (vm_compute; reflexivity).
  assert (B : forallb (chk 1) (zseq 0 366) = true) by (vm_compute; reflexivity).
  rewrite forallb_forall in A, B.
  assert (C : chk lp d = true).
  { destruct Hl as [->| ->]; [apply A|apply B]; apply in_zseq; lia. }
  unfold chk in C. destruct (md_of d lp) as [[m dt]|]; [|discriminate].
  exists m, dt. split; [reflexivity|].
  destruct (month_year_days m) as [md|]; [|rewrite andb_false_r in C; discriminate].
  rewrite !andb_true_iff, !Z.leb_le, Z.eqb_eq in C.
  destruct C as ((((C1 & C2) & C3) & C4) & C5).
  split; [lia|]. split; [lia|]. exists md. auto.
Qed.

(** The reverse: month and day number give the day within the year. *)
Lemma md_of_inverse lp m dt : lp = 0 \/ lp = 1 -> 0 <= m <= 11 -> 1 <= dt <= mlen lp m ->
  exists md, month_year_days m = Some md /\
    0 <= md + (if 1 <? m then lp else 0) + dt - 1 <= 364 + lp /\
    md_of (md + (if 1 <? m then lp else 0) + dt - 1) lp = Some (m, dt).
Proof.
  intros Hl Hm Hd.
  pose (chk := fun lp m dt => match month_year_days m with
     | Some md => let d := md + (if 1 <? m then lp else 0) + dt - 1 in
         (mlen lp m <? dt) || ((0 <=? d) && (d <=? 364 + lp) && opt_eqb (md_of d lp) (Some (m, dt)))
     | None => false end).
  assert (A : forallb (fun m => forallb (chk 0 m) (zseq 1 31)) (zseq 0 12) = true)
    by (vm_compute; reflexivity).
  assert (B : forallb (fun m => forallb (chk 1 m) (zseq 1 31)) (zseq 0 12) = true)
    by (vm_compute; reflexivity).
  rewrite forallb_forall in A, B.
  assert (Hdt : dt <= 31).
  { unfold mlen in Hd. destruct (m =? 1), ((m =? 3) || (m =? 5) || (m =? 8) || (m =? 10)); lia. }
  assert (C : chk lp m dt = true).
  { assert (Im : In m (zseq 0 12)) by (apply in_zseq; lia).
    assert (Id : In dt (zseq 1 31)) by (apply in_zseq; lia).
    destruct Hl as [->| ->].
    - specialize (A m Im). cbv beta in A. rewrite forallb_forall in A. apply A, Id.
    - specialize (B m Im). cbv beta in B. rewrite forallb_forall in B. apply B, Id. }
  unfold chk in C. destruct (month_year_days m) as [md|]; [|discriminate].
  exists md. split; [reflexivity|]. cbv zeta in C.
  apply orb_true_iff in C. destruct C as [C|C]; [apply Z.ltb_lt in C; lia|].
  rewrite !andb_true_iff, !Z.leb_le in C. destruct C as ((C1 & C2) & C3).
  apply opt_eqb_eq in C3. split; [lia|exact C3].
Qed.

Definition lpz (y : Z) : Z := if leap y then 1 else 0.
Lemma lpz_01 y : lpz y = 0 \/ lpz y = 1.
Proof. unfold lpz. destruct (leap y); auto. Qed.

(** The calendar fields of a time value. *)
Definition ymd_from_time (t : Z) : option (Z * Z * Z) :=
  match year_from_time t, month_from_time t, date_from_time t with
  | Some y, Some m, Some d => Some (y, m, d)
  | _, _, _ => None
  end.

Lemma ymd_spec t y :
  year_of (day t) y ->
  exists m dt, md_of (day t - day_from_year y) (lpz y) = Some (m, dt) /\
    ymd_from_time t = Some (y, m, dt) /\
    0 <= day t - day_from_year y <= 364 + lpz y.
Proof.
  intros Y. destruct (year_from_time_spec t) as (y' & E & Y').
  assert (y' = y) by (eapply year_of_unique; eauto). subst y'.
  assert (R : 0 <= day t - day_from_year y <= 364 + lpz y).
  { unfold year_of in Y. rewrite dfy_step in Y. unfold lpz. destruct (leap y); lia. }
  destruct (md_of_valid (lpz y) _ (lpz_01 y) R) as (m & dt & M & _).
  exists m, dt. split; [exact M|]. split; [|exact R].
  unfold ymd_from_time, date_from_time, month_from_time, day_within_year, in_leap_year.
  rewrite E. rewrite is_leap_spec. fold (lpz y).
  unfold md_of, month_of in M.
  destruct (month_loop 11 (day t - day_from_year y) (lpz y) 1) as [m'|]; [|discriminate].
  destruct (month_year_days m') as [md|]; [|discriminate].
  cbv zeta. injection M as -> <-. destruct (1 <? m); reflexivity.
Qed.

(** Fields at the epoch and one day later. *)
Lemma calendar_step t :
  exists x, ymd_from_time t = Some x /\ ymd_from_time (t + ms_per_day) = Some (next_date x).
Proof.
  destruct (year_from_time_spec t) as (y & _ & Y).
  destruct (ymd_spec t y Y) as (m & dt & M & F & R).
  exists (y, m, dt). split; [exact F|].
  assert (D : day (t + ms_per_day) = day t + 1) by (unfold day, ms_per_day; lia).
  destruct (md_check (lpz y) (lpz_01 y)) as (C0 & CL & CS).
  destruct (Z.eq_dec (day t - day_from_year y) (364 + lpz y)) as [L|L].
  - (* last day of the year *)
    assert (Y' : year_of (day (t + ms_per_day)) (y + 1)).
    { unfold year_of. rewrite D. rewrite (dfy_step (y + 1)). rewrite (dfy_step y).
      unfold lpz in L. destruct (leap y), (leap (y + 1)); lia. }
    destruct (ymd_spec _ _ Y') as (m' & dt' & M' & F' & R').
    rewrite F'. rewrite L, CL in M. injection M as <- <-.
    replace (day (t + ms_per_day) - day_from_year (y + 1)) with 0 in M'.
    2:{ rewrite D, dfy_step. unfold lpz in L. destruct (leap y); lia. }
    destruct (md_check (lpz (y + 1)) (lpz_01 (y + 1))) as (C0' & _ & _).
    rewrite C0' in M'. injection M' as <- <-.
    unfold next_date. rewrite <- mlen_month_len. fold (lpz y).
    change (mlen (lpz y) 11) with 31. reflexivity.
  - assert (Y' : year_of (day (t + ms_per_day)) y).
    { unfold year_of in *. rewrite D. rewrite dfy_step in *. unfold lpz in *.
      destruct (leap y); lia. }
    destruct (ymd_spec _ _ Y') as (m' & dt' & M' & F' & R').
    rewrite F'. rewrite D in M'.
    replace (day t + 1 - day_from_year y) with (day t - day_from_year y + 1) in M' by lia.
    destruct (CS (day t - day_from_year y)) as (p & P1 & P2); [lia|].
    rewrite M in P1. injection P1 as <-. rewrite M' in P2. unfold md_next in P2.
    unfold next_date. rewrite <- mlen_month_len. fold (lpz y).
    destruct (dt <? mlen (lpz y) m).
    + injection P2 as -> ->. reflexivity.
    + destruct (m <? 11); [|discriminate]. injection P2 as -> ->. reflexivity.
Qed.

Lemma calendar_epoch : forall r, 0 <= r < ms_per_day -> ymd_from_time r = Some (1970, 0, 1).
Proof.
  intros r H. assert (D : day r = 0) by (unfold day, ms_per_day in *; lia).
  assert (Y : year_of (day r) 1970) by (rewrite D; unfold year_of; vm_compute; split; congruence).
  destruct (ymd_spec r 1970 Y) as (m & dt & M & F & _).
  rewrite D in M. vm_compute in M. injection M as <- <-. exact F.
Qed.

Lemma ymd_valid t :
  exists y m d, ymd_from_time t = Some (y, m, d) /\ valid_date y m d.
Proof.
  destruct (year_from_time_spec t) as (y & _ & Y).
  destruct (ymd_spec t y Y) as (m & dt & M & F & R).
  exists y, m, dt. split; [exact F|].
  destruct (md_of_valid (lpz y) _ (lpz_01 y) R) as (m' & dt' & M' & A & B & _).
  rewrite M in M'. injection M' as <- <-. split; [exact A|].
  rewrite <- mlen_month_len. exact B.
Qed.

Lemma week_day_mod t : week_day t = (day t + 4) mod 7.
Proof.
  unfold week_day. cbv zeta. generalize (day t + 4). intros a.
  pose proof (Z.quot_rem' a 7) as Q. pose proof (Z.rem_bound_abs a 7).
  destruct (Z.ltb_spec (Z.rem a 7) 0).
  - apply (Z.mod_unique_pos a 7 (Z.quot a 7 - 1)); lia.
  - apply (Z.mod_unique_pos a 7 (Z.quot a 7)); lia.
Qed.

Lemma twd_mod t : time_within_day t = t mod ms_per_day.
Proof.
  unfold time_within_day, ms_per_day. cbv zeta.
  pose proof (Z.quot_rem' t 86400000) as Q. pose proof (Z.rem_bound_abs t 86400000).
  destruct (Z.ltb_spec (Z.rem t 86400000) 0).
  - apply (Z.mod_unique_pos t 86400000 (Z.quot t 86400000 - 1)); lia.
  - apply (Z.mod_unique_pos t 86400000 (Z.quot t 86400000)); lia.
Qed.

(** *** Construction *)
Lemma month_norm m : let mon0 := Z.rem m 12 in (if mon0 <? 0 then mon0 + 12 else mon0) = m mod 12.
Proof.
  cbv zeta. pose proof (Z.quot_rem' m 12) as Q. pose proof (Z.rem_bound_abs m 12).
  destruct (Z.ltb_spec (Z.rem m 12) 0).
  - apply (Z.mod_unique_pos m 12 (Z.quot m 12 - 1)); lia.
  - apply (Z.mod_unique_pos m 12 (Z.quot m 12)); lia.
Qed.

Lemma dfy_abs y : Z.abs (day_from_year y) <= 366 * Z.abs (y - 1970).
Proof.
  destruct (Z.le_ge_cases 1970 y) as [H|H].
  - pose proof (dfy_bounds 1970 (y - 1970)) as B. replace (1970 + (y - 1970)) with y in B by lia.
    rewrite dfy_1970 in B. lia.
  - pose proof (dfy_bounds y (1970 - y)) as B. replace (y + (1970 - y)) with 1970 in B by lia.
    rewrite dfy_1970 in B. lia.
Qed.

Lemma make_day_value y m d :
  Z.abs (y + m / 12) <= 200000000 -> Z.abs m < 2 ^ 62 ->
  exists yd, month_year_days (m mod 12) = Some yd /\
    make_day y m d =
    Some (day_from_year (y + m / 12)
          + (yd + if 1 <? m mod 12 then lpz (y + m / 12) else 0) + d - 1).
Proof.
  intros Hy Hm. unfold make_day. cbv zeta. rewrite month_norm.
  set (Y := y + m / 12) in *.
  pose proof (dfy_abs Y) as Ha.
  assert (G : in_int64 m && in_int64 Y && in_int64 (day_from_year Y) && in_int64 (time_from_year Y) = true).
  { unfold in_int64, time_from_year, ms_per_day. change (2 ^ 63) with 9223372036854775808.
    change (2 ^ 62) with 4611686018427387904 in Hm.
    rewrite !andb_true_iff, !Z.leb_le, !Z.ltb_lt. lia. }
  rewrite G.
  assert (Dt : day (time_from_year Y) = day_from_year Y).
  { unfold day, time_from_year, ms_per_day. generalize (day_from_year Y). intros; lia. }
  unfold in_leap_year.
  destruct (year_from_time_spec (time_from_year Y)) as (y' & E & Y').
  assert (y' = Y).
  { apply (year_of_unique (day (time_from_year Y))); auto. rewrite Dt. unfold year_of.
    rewrite dfy_step. destruct (leap Y); lia. }
  subst y'. rewrite E, is_leap_spec. fold (lpz Y).
  assert (Hmm : 0 <= m mod 12 < 12) by (apply Z.mod_pos_bound; lia).
  destruct (md_of_inverse (lpz Y) (m mod 12) 1 (lpz_01 Y)) as (yd & Hyd & _).
  { lia. }
  { unfold mlen. destruct (m mod 12 =? 1); [destruct (lpz_01 Y); lia|].
    destruct ((m mod 12 =? 3) || (m mod 12 =? 5) || (m mod 12 =? 8) || (m mod 12 =? 10)); lia. }
  exists yd. split; [exact Hyd|]. rewrite Hyd, Dt.
  destruct (1 <? m mod 12); f_equal; lia.
Qed.

Lemma make_time_range h mi s ms : valid_time h mi s ms -> 0 <= make_time h mi s ms < ms_per_day.
Proof. unfold valid_time, make_time, ms_per_hour, ms_per_minute, ms_per_second, ms_per_day. lia. Qed.

(** A calendar date and time of day is read back. *)
Theorem calendar_round_trip y m d h mi s ms :
  Z.abs y <= 200000000 -> valid_date y m d -> valid_time h mi s ms ->
  exists dn, make_day y m d = Some dn /\
    let t := make_date dn (make_time h mi s ms) in
    ymd_from_time t = Some (y, m, d) /\ day t = dn /\ time_within_day t = make_time h mi s ms /\
    week_day t = (dn + 4) mod 7.
Proof.
  intros Hy [Hm Hd] Ht. pose proof (make_time_range _ _ _ _ Ht) as Rt.
  assert (Q : m / 12 = 0) by (apply Z.div_small; lia).
  assert (Qm : m mod 12 = m) by (apply Z.mod_small; lia).
  destruct (make_day_value y m d) as (yd & Hyd & E).
  { rewrite Q. replace (y + 0) with y by lia. exact Hy. }
  { change (2 ^ 62) with 4611686018427387904. lia. }
  rewrite Q, Qm, Z.add_0_r in *. eexists. split; [exact E|]. cbv zeta.
  set (dn := day_from_year y + (yd + (if 1 <? m then lpz y else 0)) + d - 1).
  set (t := make_date dn (make_time h mi s ms)).
  assert (Dt : day t = dn).
  { unfold t, make_date, day. unfold ms_per_day in *. lia. }
  rewrite <- mlen_month_len in Hd. fold (lpz y) in Hd.
  destruct (md_of_inverse (lpz y) m d (lpz_01 y) Hm Hd) as (md & Hmd & R & M).
  rewrite Hyd in Hmd. injection Hmd as <-.
  assert (Y : year_of (day t) y).
  { rewrite Dt. unfold year_of. rewrite dfy_step. unfold dn.
    unfold lpz in *. destruct (leap y); lia. }
  destruct (ymd_spec t y Y) as (m' & dt' & M' & F & _).
  split; [|split; [exact Dt|split]].
  - rewrite F. rewrite Dt in M'. unfold dn in M'.
    replace (day_from_year y + (yd + (if 1 <? m then lpz y else 0)) + d - 1 - day_from_year y)
      with (yd + (if 1 <? m then lpz y else 0) + d - 1) in M' by lia.
    rewrite M in M'. injection M' as <- <-. reflexivity.
  - rewrite twd_mod. unfold t, make_date. unfold ms_per_day in *. lia.
  - rewrite week_day_mod, Dt. reflexivity.
Qed.

Theorem time_value_rebuilt t : make_date (day t) (time_within_day t) = t.
Proof. rewrite twd_mod. unfold make_date, day, ms_per_day. lia. Qed.

(** Reading the fields of a time value and rebuilding it gives it back. *)
Theorem time_value_fields_rebuild t y m d :
  Z.abs t <= 8640000000000000 ->
  ymd_from_time t = Some (y, m, d) -> make_day y m d = Some (day t).
Proof.
  intros Ht F.
  destruct (year_from_time_spec t) as (y' & _ & Y).
  destruct (ymd_spec t y' Y) as (m' & d' & M & F' & R).
  rewrite F in F'. injection F' as <- <- <-.
  destruct (md_of_valid (lpz y) _ (lpz_01 y) R) as (m1 & d1 & M1 & A & B & md & Hmd & Eq).
  rewrite M in M1. injection M1 as <- <-.
  assert (Qm : m mod 12 = m) by (apply Z.mod_small; lia).
  assert (Q : m / 12 = 0) by (apply Z.div_small; lia).
  assert (Hy : Z.abs y <= 200000000).
  { assert (Hd : Z.abs (day t) <= 100000000) by (unfold day, ms_per_day; lia).
    unfold year_of in Y. rewrite dfy_step in Y.
    assert (Hl : (if leap y then 366 else 365) <= 366) by (destruct (leap y); lia).
    destruct (Z.le_ge_cases 1970 y) as [H|H].
    - pose proof (dfy_bounds 1970 (y - 1970)) as Bd. replace (1970 + (y - 1970)) with y in Bd by lia.
      rewrite dfy_1970 in Bd. lia.
    - pose proof (dfy_bounds y (1970 - y)) as Bd. replace (y + (1970 - y)) with 1970 in Bd by lia.
      rewrite dfy_1970 in Bd. lia. }
  destruct (make_day_value y m d) as (yd & Hyd & E).
  { rewrite Q, Z.add_0_r. exact Hy. }
  { change (2 ^ 62) with 4611686018427387904. lia. }
  rewrite Q, Qm, Z.add_0_r in *. rewrite E. rewrite Hmd in Hyd. injection Hyd as <-. f_equal. lia.
Qed.

(** *** Time of day *)
Lemma quot_rem_field t u n :
  0 < u -> 0 < n ->
  let v := Z.rem (Z.quot t u) n in
  let f := if v <? 0 then v + n else v in
  0 <= f < n /\ f = (if (0 <=? t) || (t mod u =? 0) then t / u else t / u + 1) mod n.
Proof.
  intros Hu Hn. cbv zeta.
  assert (Q : Z.quot t u = if (0 <=? t) || (t mod u =? 0) then t / u else t / u + 1).
  { pose proof (Z.div_mod t u ltac:(lia)) as DM. pose proof (Z.mod_pos_bound t u Hu) as MB.
    destruct (Z.leb_spec 0 t) as [P|P]; cbn [orb].
    - apply Z.quot_div_nonneg; lia.
    - destruct (Z.eqb_spec (t mod u) 0) as [Z0|Z0].
      + symmetry. apply Z.quot_unique_exact; lia.
      + symmetry. apply (Zquot_unique_full t u _ (t mod u - u)).
        * right. rewrite Z.abs_eq by lia. lia.
        * lia. }
  set (q := if (0 <=? t) || (t mod u =? 0) then t / u else t / u + 1) in *.
  rewrite Q. pose proof (Z.quot_rem' q n) as QR. pose proof (Z.rem_bound_abs q n).
  destruct (Z.ltb_spec (Z.rem q n) 0).
  - split; [lia|]. apply (Z.mod_unique_pos q n (Z.quot q n - 1)); lia.
  - split; [lia|]. apply (Z.mod_unique_pos q n (Z.quot q n)); lia.
Qed.

Lemma ms_mod t : ms_from_time t = t mod 1000.
Proof.
  unfold ms_from_time. cbv zeta. pose proof (Z.quot_rem' t 1000) as Q.
  pose proof (Z.rem_bound_abs t 1000).
  destruct (Z.ltb_spec (Z.rem t 1000) 0).
  - apply (Z.mod_unique_pos t 1000 (Z.quot t 1000 - 1)); lia.
  - apply (Z.mod_unique_pos t 1000 (Z.quot t 1000)); lia.
Qed.

Definition tod (t : Z) : Z :=
  make_time (hour_from_time t) (min_from_time t) (sec_from_time t) (ms_from_time t).

Theorem time_fields_range t :
  valid_time (hour_from_time t) (min_from_time t) (sec_from_time t) (ms_from_time t).
Proof.
  unfold valid_time, hour_from_time, min_from_time, sec_from_time.
  pose proof (quot_rem_field t ms_per_hour 24 ltac:(reflexivity) ltac:(lia)) as (H & _).
  pose proof (quot_rem_field t ms_per_minute 60 ltac:(reflexivity) ltac:(lia)) as (M & _).
  pose proof (quot_rem_field t ms_per_second 60 ltac:(reflexivity) ltac:(lia)) as (S & _).
  rewrite ms_mod. cbv zeta in *. pose proof (Z.mod_pos_bound t 1000). lia.
Qed.

(** Exactly when the time-of-day getters recombine to the time within the day. *)
Theorem time_fields_recombine_iff t :
  tod t = t mod ms_per_day <-> 0 <= t \/ t mod ms_per_hour = 0.
Proof.
  unfold tod, make_time, hour_from_time, min_from_time, sec_from_time.
  pose proof (quot_rem_field t ms_per_hour 24 ltac:(reflexivity) ltac:(lia)) as (_ & H).
  pose proof (quot_rem_field t ms_per_minute 60 ltac:(reflexivity) ltac:(lia)) as (_ & M).
  pose proof (quot_rem_field t ms_per_second 60 ltac:(reflexivity) ltac:(lia)) as (_ & S).
  rewrite ms_mod. cbv zeta in *. rewrite H, M, S. clear H M S.
  unfold ms_per_hour, ms_per_minute, ms_per_second, ms_per_day.
  destruct (Z.leb_spec 0 t) as [P|P]; cbn [orb].
  - split; [auto|]. intros _. lia.
  - destruct (Z.eqb_spec (t mod 3600000) 0) as [A|A].
    + split; [auto|]. intros _.
      destruct (Z.eqb_spec (t mod 60000) 0); [|lia].
      destruct (Z.eqb_spec (t mod 1000) 0); lia.
    + split; [|lia]. intros E. exfalso.
      destruct (Z.eqb_spec (t mod 60000) 0);
      destruct (Z.eqb_spec (t mod 1000) 0); lia.
Qed.

(** Date.UTC of a valid date and time, year outside 0..99. *)
Theorem utc_round_trip y m d h mi s ms :
  Z.abs y <= 200000000 -> ~ (0 <= y <= 99) -> valid_date y m d -> valid_time h mi s ms ->
  exists t,
    date_UTC y m d h mi s ms = (if Z.abs t <=? 8640000000000000 then TVal t else TNaN) /\
    ymd_from_time t = Some (y, m, d) /\
    t mod ms_per_day = make_time h mi s ms /\
    week_day t = (t / ms_per_day + 4) mod 7.
Proof.
  intros Hy Hn Hd Ht.
  destruct (calendar_round_trip y m d h mi s ms Hy Hd Ht) as (dn & E & F & D & T & W).
  exists (make_date dn (make_time h mi s ms)). split; [|split; [exact F|split]].
  - unfold date_UTC. cbv zeta.
    destruct (Z.leb_spec 0 y); destruct (Z.leb_spec y 99); cbn [andb]; try lia;
      rewrite E; unfold time_clip;
      destruct (Z.ltb_spec 8640000000000000 (Z.abs (make_date dn (make_time h mi s ms))));
      destruct (Z.leb_spec (Z.abs (make_date dn (make_time h mi s ms))) 8640000000000000);
      try lia; reflexivity.
  - rewrite <- twd_mod. exact T.
  - rewrite week_day_mod. reflexivity.
Qed.

(** Years 0..99 stand for 1900..1999. *)
Theorem utc_two_digit_year y m d h mi s ms :
  0 <= y <= 99 -> date_UTC y m d h mi s ms = date_UTC (y + 1900) m d h mi s ms.
Proof.
  intros H. unfold date_UTC. cbv zeta.
  destruct (Z.leb_spec 0 y); destruct (Z.leb_spec y 99); cbn [andb]; try lia.
  destruct (Z.leb_spec 0 (y + 1900)); destruct (Z.leb_spec (y + 1900) 99); cbn [andb]; try lia.
  reflexivity.
Qed.

(** Months and days outside their range carry. *)
Theorem make_day_carry y m d :
  Z.abs (y + m / 12) <= 200000000 -> Z.abs m < 2 ^ 62 ->
  exists dn, make_day (y + m / 12) (m mod 12) 1 = Some dn /\ make_day y m d = Some (dn + d - 1) /\
    ymd_from_time (dn * ms_per_day) = Some (y + m / 12, m mod 12, 1).
Proof.
  intros Hy Hm. assert (Hr : 0 <= m mod 12 < 12) by lia.
  destruct (make_day_value y m d Hy Hm) as (yd & E & V).
  destruct (calendar_round_trip (y + m / 12) (m mod 12) 1 0 0 0 0 Hy) as (dn & E' & F & _).
  { unfold valid_date, month_len. destruct (m mod 12 =? 1); [destruct (leap (y + m / 12)); lia|].
    destruct ((m mod 12 =? 3) || (m mod 12 =? 5) || (m mod 12 =? 8) || (m mod 12 =? 10)); lia. }
  { unfold valid_time. lia. }
  exists dn. split; [exact E'|].
  destruct (make_day_value (y + m / 12) (m mod 12) 1) as (yd' & E2 & V2).
  { replace (m mod 12 / 12) with 0 by lia. rewrite Z.add_0_r. exact Hy. }
  { change (2 ^ 62) with 4611686018427387904. lia. }
  replace (m mod 12 / 12) with 0 in V2 by lia. rewrite Z.add_0_r in V2.
  rewrite Z.mod_mod in E2, V2 by lia. rewrite E in E2. injection E2 as <-.
  rewrite E' in V2. injection V2 as V2. split.
  - rewrite V. f_equal. lia.
  - replace (dn * ms_per_day) with (make_date dn (make_time 0 0 0 0)); [exact F|].
    unfold make_date, make_time. lia.
Qed.

(** The double division in [day]: for |t / 86400000| < 2^27 the quotient is
    rounded to the nearest multiple of 2^-e for some e >= 26 (53-bit
    significand); the floor of any such rounding is the exact floor. *)
Theorem day_division_exact t e n :
  26 <= e -> 2 * Z.abs (n * ms_per_day - t * 2 ^ e) <= ms_per_day -> n / 2 ^ e = day t.
Proof.
  intros He H. unfold day, ms_per_day in *.
  assert (P : 67108864 <= 2 ^ e).
  { change 67108864 with (2 ^ 26). apply Z.pow_le_mono_r; lia. }
  symmetry. set (k := t / 86400000). assert (K : 86400000 * k <= t <= 86400000 * k + 86399999) by (unfold k; lia).
  clearbody k. apply (Z.div_unique_pos n (2 ^ e) k (n - 2 ^ e * k)); [|lia].
  generalize dependent (2 ^ e). intros p H P.
  assert (A : t * p >= 86400000 * k * p) by nia.
  assert (B : t * p <= 86400000 * k * p + 86399999 * p) by nia.
  nia.
Qed.
