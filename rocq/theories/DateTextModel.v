(** Model of Date.prototype.toISOString and of the ISO branch of Date.parse.

    Source: /repo/src/lib/rjs_date_object_inc.c lines 2160-2195 (toISOString),
    514-527 (eatup_space), 544-572 (parse_date_number), 574-607 (parse_year),
    660-699 (parse_hour), 720-745 and 886-974 (date_parse).

    Characters are code points in [Z]; [RJS_INPUT_END] is -1.  The input is the
    list of remaining characters ([rjs_input_get_uc] /
    [rjs_input_unget_uc], rjs_input.c:217-296, restricted to text without
    surrogates).  The branch of [date_parse] for texts starting with a letter
    (lines 746-885) is not modelled and gives [PAlpha].  [is_ws] is
    rjs_uchar_is_white_space and [is_alpha] rjs_uchar_is_alpha. *)
From Coq Require Import ZArith List Bool.
Import ListNotations.
From Verif Require Import DateModel.
Open Scope Z_scope.

(** *** Printing: the conversions of snprintf that are used *)

(** Decimal digits of a non-negative number, most significant first. *)
Fixpoint dec_digits (fuel : nat) (n : Z) (acc : list Z) : list Z :=
  match fuel with
  | O => acc
  | S f => let acc' := (48 + n mod 10) :: acc in
           if n / 10 =? 0 then acc' else dec_digits f (n / 10) acc'
  end.
Definition dec (n : Z) : list Z := dec_digits (S (Z.to_nat (Z.log2 n))) n [].

(** [%0<w>d]: the sign counts in the width. *)
Definition fmt0 (w : nat) (n : Z) : list Z :=
  if n <? 0 then 45 :: repeat 48 (w - 1 - length (dec (- n))) ++ dec (- n)
  else repeat 48 (w - length (dec n)) ++ dec n.

(** lines 2161-2195 — toISOString of a valid time value *)
Definition to_iso_string (t : Z) : option (list Z) :=
  match year_from_time t, month_from_time t, date_from_time t with
  | Some y, Some m, Some d =>
    Some (fmt0 4 y ++ [45] ++ fmt0 2 (m + 1) ++ [45] ++ fmt0 2 d ++ [84]
          ++ fmt0 2 (hour_from_time t) ++ [58] ++ fmt0 2 (min_from_time t) ++ [58]
          ++ fmt0 2 (sec_from_time t) ++ [46] ++ fmt0 3 (ms_from_time t) ++ [90])
  | _, _, _ => None
  end.

(** *** Parsing *)
Section Parse.
  Variable is_ws is_alpha : Z -> bool.
  (** local time zone offset [local_tza], lines 308-315 *)
  Variable tza : Z.

  Definition is_digit (c : Z) : bool := (48 <=? c) && (c <=? 57).

  (** rjs_input_get_uc *)
  Definition get (inp : list Z) : Z * list Z :=
    match inp with [] => (-1, []) | c :: t => (c, t) end.
  (** rjs_input_unget_uc *)
  Definition unget (c : Z) (inp : list Z) : list Z := if 0 <=? c then c :: inp else inp.

  (** lines 515-527; structural on the input *)
  Fixpoint eatup_space (inp : list Z) : Z * list Z :=
    match inp with
    | [] => (-1, [])
    | c :: t => if is_ws c then eatup_space t else (c, t)
    end.

  Definition INT_MAX : Z := 2147483647.

  (** Result of the number scanner: signed overflow, or value and rest;
      [rlen = 0] is -1. *)
  Inductive num := NUB | NVal (v : Z) (rest : list Z).

  (** lines 545-572; [len < 0] means unlimited *)
  Fixpoint number_loop (inp : list Z) (len rlen v : Z) : num :=
    match inp with
    | [] => NVal (if rlen =? 0 then -1 else v) []
    | c :: t =>
      if negb (is_digit c) then NVal (if rlen =? 0 then -1 else v) (c :: t)
      else
        let v' := v * 10 + (c - 48) in
        if INT_MAX <? v' then NUB
        else if (0 <? len) && (len <=? rlen + 1) then NVal v' t
        else number_loop t len (rlen + 1) v'
    end.
  Definition parse_date_number (inp : list Z) (len : Z) : num := number_loop inp len 0 0.

  Inductive res (A : Type) := RUB | RErr | ROk (a : A) (rest : list Z).
  Arguments RUB {A}. Arguments RErr {A}. Arguments ROk {A}.

  Definition bind {A B} (r : res A) (f : A -> list Z -> res B) : res B :=
    match r with RUB => RUB | RErr => RErr | ROk a rest => f a rest end.

  (** [if ((x = parse_date_number (...)) < 0) goto end;] *)
  Definition number (inp : list Z) (len : Z) : res Z :=
    match parse_date_number inp len with
    | NUB => RUB
    | NVal v rest => if v <? 0 then RErr else ROk v rest
    end.

  (** lines 575-607 *)
  Definition parse_year (inp : list Z) : res Z :=
    let '(c0, i0) := get inp in
    let '(sign, c, i) :=
      if c0 =? 45 then let '(c, i) := eatup_space i0 in (-1, c, i)
      else if c0 =? 43 then let '(c, i) := eatup_space i0 in (1, c, i)
      else (1, c0, i0) in
    bind (number (unget c i) (-1)) (fun y rest =>
      if sign =? -1 then (if y =? 0 then RErr else ROk (- y) rest) else ROk y rest).

  (** lines 660-699 *)
  Definition parse_hour (inp : list Z) : res (Z * Z * Z * Z) :=
    bind (number inp 2) (fun hour i1 =>
      let '(c1, i1') := get i1 in
      if c1 =? 58 then
        bind (number i1' 2) (fun min i2 =>
          let '(c2, i2') := get i2 in
          if c2 =? 58 then
            bind (number i2' 2) (fun sec i3 =>
              let '(c3, i3') := get i3 in
              if c3 =? 46 then
                bind (number i3' 3) (fun ms i4 =>
                  let '(c4, i4') := get i4 in
                  ROk (hour, min, sec, ms) (unget c4 i4'))
              else ROk (hour, min, sec, 0) (unget c3 i3'))
          else ROk (hour, min, 0, 0) (unget c2 i2'))
      else ROk (hour, 0, 0, 0) (unget c1 i1')).

  (** line 54 — month_days *)
  Definition month_days (m : Z) : option Z :=
    if m <? 0 then None
    else nth_error [31; 28; 31; 30; 31; 30; 31; 31; 30; 31; 30; 31] (Z.to_nat m).

  Inductive parsed := PUB | PAlpha | PNaN | PVal (t : Z).

  (** lines 886-940: year, month, day, time, offset (sign, hour, minute), local *)
  Definition parse_iso_fields (inp : list Z)
    : res (Z * Z * Z * (Z * Z * Z * Z) * (Z * Z * Z) * bool) :=
    bind (parse_year inp) (fun y i1 =>
      let '(c1, i1') := get i1 in
      bind (if c1 =? 45 then
              bind (number i1' 2) (fun mon i2 =>
                let '(c2, i2') := get i2 in
                if c2 =? 45 then
                  bind (number i2' 2) (fun dy i3 =>
                    let '(c3, i3') := get i3 in ROk (mon, dy, c3) i3')
                else ROk (mon, 1, c2) i2')
            else ROk (1, 1, c1) i1')
      (fun mdc i4 =>
        let '(mon, dy, c4) := mdc in
        bind (if c4 =? 84 then
                bind (parse_hour i4) (fun hms i5 =>
                  let '(c5, i5') := get i5 in ROk (hms, c5, true) i5')
              else ROk ((0, 0, 0, 0), c4, false) i4)
        (fun htc i6 =>
          let '(hms, c6, has_time) := htc in
          if c6 =? 90 then ROk (y, mon, dy, hms, (1, 0, 0), false) i6
          else if (c6 =? 43) || (c6 =? 45) then
            bind (number i6 2) (fun oh i7 =>
              let '(c7, i7') := get i7 in
              if negb (c7 =? 58) then RErr
              else bind (number i7' 2) (fun om i8 =>
                     ROk (y, mon, dy, hms, ((if c6 =? 43 then 1 else -1), oh, om), false) i8))
          else ROk (y, mon, dy, hms, (1, 0, 0), has_time) (unget c6 i6)))).

  (** lines 720-974 *)
  Definition date_parse (inp : list Z) : parsed :=
    let '(c, i0) := eatup_space inp in
    if c =? -1 then PNaN
    else if is_alpha c then PAlpha
    else
      match parse_iso_fields (unget c i0) with
      | RUB => PUB
      | RErr => PNaN
      | ROk (y, mon, dy, (hour, min, sec, ms), (osign, oh, om), is_local) rest =>
        let '(c9, _) := eatup_space rest in
        if negb (c9 =? -1) then PNaN
        else if (mon <? 1) || (12 <? mon) then PNaN
        else
          match month_days (mon - 1) with
          | None => PUB
          | Some md =>
            if (if mon =? 2 then md + is_leap_year y else md) <? dy then PNaN
            else if (23 <? hour) || (59 <? min) || (59 <? sec) then PNaN
            else if (23 <? oh) || (59 <? om) then PNaN
            else
              match make_day y (mon - 1) dy with
              | None => PUB
              | Some dn =>
                let tv0 := make_date dn (make_time hour min sec ms) in
                let tv1 := if is_local then tv0 - tza else tv0 in
                let tv2 := tv1 - osign * (oh * ms_per_hour + om * ms_per_minute) in
                match time_clip tv2 with None => PNaN | Some t => PVal t end
              end
          end
      end.
End Parse.
Arguments RUB {A}. Arguments RErr {A}. Arguments ROk {A}.
