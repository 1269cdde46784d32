(** Model of the calendar arithmetic of Date objects.

    Source: /repo/src/lib/rjs_date_object_inc.c lines 34-40 (constants), 52-57
    (tables), 90-294 (decomposition), 395-510 (construction), 1133-1205
    (Date.UTC).

    Time values are integers in [Z].  C's [/] and [%] are [Z.quot] and [Z.rem].
    Simplifications: [day] (line 91) divides as double and floors; for
    |t| <= 2^53 the rounded quotient has the same floor (the quotient is below
    2^27, its half ulp 2^-27 is below 1/86400000, the least distance of a
    non-integral quotient to an integer), so it is the floor division here;
    likewise the divisions of [day_from_year] (line 125).  Number arguments are
    integral (ToIntegerOrInfinity was applied) and finite. *)
From Coq Require Import ZArith List Bool.
Import ListNotations.
Open Scope Z_scope.

(** lines 34-40 *)
Definition ms_per_day : Z := 86400000.
Definition ms_per_hour : Z := 3600000.
Definition ms_per_minute : Z := 60000.
Definition ms_per_second : Z := 1000.

(** line 57 — month_year_days; index outside 0..11 is [None]. *)
Definition month_year_days (m : Z) : option Z :=
  if m <? 0 then None
  else nth_error [0; 31; 59; 90; 120; 151; 181; 212; 243; 273; 304; 334] (Z.to_nat m).

(** lines 90-95 *)
Definition day (t : Z) : Z := t / ms_per_day.

(** lines 97-108 *)
Definition time_within_day (t : Z) : Z :=
  let v := Z.rem t ms_per_day in
  if v <? 0 then v + ms_per_day else v.

(** lines 110-122 *)
Definition days_in_year (y : Z) : Z :=
  if negb (Z.rem y 4 =? 0) then 365
  else if negb (Z.rem y 100 =? 0) then 366
  else if negb (Z.rem y 400 =? 0) then 365
  else 366.

(** lines 124-129 *)
Definition day_from_year (y : Z) : Z :=
  365 * (y - 1970) + (y - 1969) / 4 - (y - 1901) / 100 + (y - 1601) / 400.

(** lines 131-136 *)
Definition time_from_year (y : Z) : Z := ms_per_day * day_from_year y.

(** lines 147-156 — search downwards; [None] when the fuel runs out *)
Fixpoint year_down (fuel : nat) (t y : Z) : option Z :=
  match fuel with
  | O => None
  | S f => if time_from_year y <=? t then Some y else year_down f t (y - 1)
  end.

(** lines 158-168 — search upwards *)
Fixpoint year_up (fuel : nat) (t y : Z) : option Z :=
  match fuel with
  | O => None
  | S f => if t <? time_from_year (y + 1) then Some y else year_up f t (y + 1)
  end.

(** lines 138-169 *)
Definition year_from_time (t : Z) : option Z :=
  let d := day t in
  let y := Z.quot d 365 + 1970 in
  let fuel := S (S (Z.to_nat (Z.abs d))) in
  if 0 <=? d then year_down fuel t y else year_up fuel t (y - 1).

(** lines 171-176 *)
Definition day_within_year (t : Z) : option Z :=
  match year_from_time t with
  | Some y => Some (day t - day_from_year y)
  | None => None
  end.

(** lines 178-185 *)
Definition is_leap_year (y : Z) : Z := if days_in_year y =? 366 then 1 else 0.

(** lines 187-192 *)
Definition in_leap_year (t : Z) : option Z :=
  match year_from_time t with Some y => Some (is_leap_year y) | None => None end.

(** lines 194-205 *)
Definition week_day (t : Z) : Z :=
  let v := Z.rem (day t + 4) 7 in
  if v <? 0 then v + 7 else v.

(** lines 214-226 — the month loop from [m]; [n] iterations are left *)
Fixpoint month_loop (n : nat) (d leap m : Z) : option Z :=
  match n with
  | O => Some 11
  | S n' =>
    match month_year_days m with
    | None => None
    | Some md0 =>
      let md := if 1 <? m then md0 + leap else md0 in
      if d <? md then Some (m - 1) else month_loop n' d leap (m + 1)
    end
  end.

(** lines 207-226 *)
Definition month_from_time (t : Z) : option Z :=
  match day_within_year t, in_leap_year t with
  | Some d, Some leap => month_loop 11 d leap 1
  | _, _ => None
  end.

(** lines 228-243 *)
Definition date_from_time (t : Z) : option Z :=
  match day_within_year t, month_from_time t, in_leap_year t with
  | Some d, Some month, Some leap =>
    match month_year_days month with
    | Some md =>
      let r := d - md + 1 in
      Some (if 1 <? month then r - leap else r)
    | None => None
    end
  | _, _, _ => None
  end.

(** lines 245-256 *)
Definition hour_from_time (t : Z) : Z :=
  let v := Z.rem (Z.quot t ms_per_hour) 24 in if v <? 0 then v + 24 else v.
(** lines 258-269 *)
Definition min_from_time (t : Z) : Z :=
  let v := Z.rem (Z.quot t ms_per_minute) 60 in if v <? 0 then v + 60 else v.
(** lines 271-282 *)
Definition sec_from_time (t : Z) : Z :=
  let v := Z.rem (Z.quot t ms_per_second) 60 in if v <? 0 then v + 60 else v.
(** lines 284-294 *)
Definition ms_from_time (t : Z) : Z :=
  let v := Z.rem t 1000 in if v <? 0 then v + 1000 else v.

(** int64_t range *)
Definition in_int64 (z : Z) : bool := (- 2 ^ 63 <=? z) && (z <? 2 ^ 63).

(** lines 418-447 *)
Definition make_time (h m s ms : Z) : Z :=
  h * ms_per_hour + m * ms_per_minute + s * ms_per_second + ms.

(** lines 449-495; [None] is undefined behaviour: the int64_t product of
    [time_from_year] overflows, or the conversion of [m] or of the double sum of
    [day_from_year] to int64_t is out of range. *)
Definition make_day (y0 m d : Z) : option Z :=
  let y := y0 + m / 12 in
  if in_int64 m && in_int64 y && in_int64 (day_from_year y) && in_int64 (time_from_year y) then
    let mon0 := Z.rem m 12 in
    let mon := if mon0 <? 0 then mon0 + 12 else mon0 in
    let t := time_from_year y in
    match in_leap_year t, month_year_days mon with
    | Some leap, Some yd0 =>
      let yd := if 1 <? mon then yd0 + leap else yd0 in
      Some (day t + yd + d - 1)
    | _, _ => None
    end
  else None.

(** lines 497-512 *)
Definition make_date (d t : Z) : Z := d * ms_per_day + t.

(** lines 394-416; [None] is NaN *)
Definition time_clip (n : Z) : option Z :=
  if 8640000000000000 <? Z.abs n then None else Some n.

(** Outcome of Date.UTC: undefined behaviour, NaN or a time value. *)
Inductive tv := TUB | TNaN | TVal (t : Z).

(** lines 1190-1202 (finite integral arguments) *)
Definition date_UTC (y m dt h mi s ms : Z) : tv :=
  let y' := if (0 <=? y) && (y <=? 99) then y + 1900 else y in
  match make_day y' m dt with
  | None => TUB
  | Some d => match time_clip (make_date d (make_time h mi s ms)) with
              | None => TNaN
              | Some t => TVal t
              end
  end.
