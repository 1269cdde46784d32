(** Property theorems C01 (calendar), C02 (time of day) and C47 (ISO text). *)
From Coq Require Import ZArith List Bool.
Import ListNotations.
From Verif Require Import DateModel DateSpec DateProofs DateTextModel DateTextProofs.
Open Scope Z_scope.

(** ** C01 *)

(** The year/month/day read from time values follow the Gregorian calendar:
    day 0 is 1970-01-01 and one day later is the next date, for every integer
    time value. *)
Theorem C01_calendar_epoch : forall r, 0 <= r < ms_per_day -> ymd_from_time r = Some (1970, 0, 1).
Proof. exact calendar_epoch. Qed.
Print Assumptions C01_calendar_epoch.

Theorem C01_calendar_step : forall t,
  exists x, ymd_from_time t = Some x /\ ymd_from_time (t + ms_per_day) = Some (next_date x).
Proof. exact calendar_step. Qed.
Print Assumptions C01_calendar_step.

Theorem C01_calendar_fields_valid : forall t,
  exists y m d, ymd_from_time t = Some (y, m, d) /\ valid_date y m d.
Proof. exact ymd_valid. Qed.
Print Assumptions C01_calendar_fields_valid.

Theorem C01_utc_round_trip : forall y m d h mi s ms,
  Z.abs y <= 200000000 -> ~ (0 <= y <= 99) -> valid_date y m d -> valid_time h mi s ms ->
  exists t,
    date_UTC y m d h mi s ms = (if Z.abs t <=? 8640000000000000 then TVal t else TNaN) /\
    ymd_from_time t = Some (y, m, d) /\
    t mod ms_per_day = make_time h mi s ms /\
    week_day t = (t / ms_per_day + 4) mod 7.
Proof. exact utc_round_trip. Qed.
Print Assumptions C01_utc_round_trip.

Theorem C01_utc_two_digit_year : forall y m d h mi s ms,
  0 <= y <= 99 -> date_UTC y m d h mi s ms = date_UTC (y + 1900) m d h mi s ms.
Proof. exact utc_two_digit_year. Qed.
Print Assumptions C01_utc_two_digit_year.

Theorem C01_make_day_carry : forall y m d,
  Z.abs (y + m / 12) <= 200000000 -> Z.abs m < 2 ^ 62 ->
  exists dn, make_day (y + m / 12) (m mod 12) 1 = Some dn /\ make_day y m d = Some (dn + d - 1) /\
    ymd_from_time (dn * ms_per_day) = Some (y + m / 12, m mod 12, 1).
Proof. exact make_day_carry. Qed.
Print Assumptions C01_make_day_carry.

Theorem C01_time_value_rebuilt : forall t, make_date (day t) (time_within_day t) = t.
Proof. exact time_value_rebuilt. Qed.
Print Assumptions C01_time_value_rebuilt.

Theorem C01_time_value_fields_rebuild : forall t y m d,
  Z.abs t <= 8640000000000000 ->
  ymd_from_time t = Some (y, m, d) -> make_day y m d = Some (day t).
Proof. exact time_value_fields_rebuild. Qed.
Print Assumptions C01_time_value_fields_rebuild.

Theorem C01_day_division_exact : forall t e n,
  26 <= e -> 2 * Z.abs (n * ms_per_day - t * 2 ^ e) <= ms_per_day -> n / 2 ^ e = day t.
Proof. exact day_division_exact. Qed.
Print Assumptions C01_day_division_exact.

(** Outside that range Date.UTC must give NaN, but the code overflows int64_t:
    Date.UTC(1e9, 0). *)
Theorem C01_utc_huge_year_overflow_refuted :
  exists y, date_UTC y 0 1 0 0 0 0 = TUB.
Proof. exists 1000000000. vm_compute. reflexivity. Qed.
Print Assumptions C01_utc_huge_year_overflow_refuted.

Example C01_example_leap_day : date_UTC 2000 1 29 23 59 59 999 = TVal 951868799999.
Proof. vm_compute. reflexivity. Qed.
Example C01_example_read : ymd_from_time 951868799999 = Some (2000, 1, 29) /\ week_day 951868799999 = 2.
Proof. vm_compute. split; reflexivity. Qed.
Example C01_example_negative : ymd_from_time (-62198755200000) = Some (-1, 0, 1).
Proof. vm_compute. reflexivity. Qed.
Example C01_example_hyp : ~ (0 <= 2000 <= 99) /\ valid_date 2000 1 29 /\ valid_time 23 59 59 999.
Proof. unfold valid_date, valid_time. vm_compute. intuition congruence. Qed.
Example C01_example_carry : make_day 2020 (-1) 0 = Some 18230 /\ make_day 2019 11 1 = Some 18231.
Proof. vm_compute. split; reflexivity. Qed.
Example C01_example_division : 2 * Z.abs (67108862 * ms_per_day - 86399999 * 2 ^ 26) <= ms_per_day
  -> 67108862 / 2 ^ 26 = 0.
Proof. intros _. vm_compute. reflexivity. Qed.

(** ** C02 *)
Theorem C02_time_fields_in_range : forall t,
  valid_time (hour_from_time t) (min_from_time t) (sec_from_time t) (ms_from_time t).
Proof. exact time_fields_range. Qed.
Print Assumptions C02_time_fields_in_range.

(** The getters recombine to the time within the day exactly on the
    non-negative time values and the negative whole hours. *)
Theorem C02_time_fields_recombine_iff : forall t,
  make_time (hour_from_time t) (min_from_time t) (sec_from_time t) (ms_from_time t) = t mod ms_per_day
  <-> 0 <= t \/ t mod ms_per_hour = 0.
Proof. exact time_fields_recombine_iff. Qed.
Print Assumptions C02_time_fields_recombine_iff.

(** One millisecond before the epoch reads 00:00:00.999. *)
Theorem C02_time_fields_negative_refuted : exists t,
  make_time (hour_from_time t) (min_from_time t) (sec_from_time t) (ms_from_time t) <> t mod ms_per_day.
Proof. exists (-1). vm_compute. discriminate. Qed.
Print Assumptions C02_time_fields_negative_refuted.

Example C02_example_good :
  (hour_from_time 951868799999, min_from_time 951868799999,
   sec_from_time 951868799999, ms_from_time 951868799999) = (23, 59, 59, 999).
Proof. reflexivity. Qed.
Example C02_example_bad :
  (hour_from_time (-1), min_from_time (-1), sec_from_time (-1), ms_from_time (-1)) = (0, 0, 0, 999).
Proof. reflexivity. Qed.

(** ** C47 *)

(** White space and letters are any sets that leave out the characters of the
    ISO text. *)
Theorem C47_iso_round_trip_iff : forall (is_ws is_alpha : Z -> bool) (tza : Z),
  (forall c, 33 <= c <= 126 -> is_ws c = false) ->
  (forall c, 48 <= c <= 57 \/ c = 45 -> is_alpha c = false) ->
  forall t, Z.abs t <= 8640000000000000 ->
  exists text, to_iso_string t = Some text /\
    (date_parse is_ws is_alpha tza text = PVal t <-> 0 <= t \/ t mod ms_per_hour = 0).
Proof. exact iso_round_trip_iff. Qed.
Print Assumptions C47_iso_round_trip_iff.

Definition ws_ascii (c : Z) : bool := (c =? 32) || ((9 <=? c) && (c <=? 13)).
Definition alpha_ascii (c : Z) : bool :=
  ((65 <=? c) && (c <=? 90)) || ((97 <=? c) && (c <=? 122)).

Theorem C47_iso_round_trip_negative_refuted : exists t text t',
  Z.abs t <= 8640000000000000 /\ to_iso_string t = Some text /\
  date_parse ws_ascii alpha_ascii 0 text = PVal t' /\ t' <> t.
Proof.
  exists (-1).
  exists [49; 57; 54; 57; 45; 49; 50; 45; 51; 49; 84; 48; 48; 58; 48; 48; 58; 48; 48; 46; 57; 57; 57; 90].
  exists (-86399001). vm_compute. repeat split; congruence.
Qed.
Print Assumptions C47_iso_round_trip_negative_refuted.

Example C47_example : exists text, to_iso_string 951868799999 = Some text /\
  text = [50; 48; 48; 48; 45; 48; 50; 45; 50; 57; 84; 50; 51; 58; 53; 57; 58; 53; 57; 46; 57; 57; 57; 90]
  /\ date_parse ws_ascii alpha_ascii 0 text = PVal 951868799999.
Proof. eexists. split; [vm_compute; reflexivity|]. split; vm_compute; reflexivity. Qed.
Example C47_example_hyps :
  forallb (fun c => negb (ws_ascii c)) (zseq 33 94) = true /\
  forallb (fun c => negb (alpha_ascii c)) (45 :: zseq 48 10) = true.
Proof. vm_compute. split; reflexivity. Qed.
