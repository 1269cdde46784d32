(** Property theorems for integer conversions and bit operators (C35, C36, C56, C57). *)
From Coq Require Import ZArith List Bool Lia.
Import ListNotations.
From Verif Require Import StrModel NumModel NumSpec NumProofs.
Local Open Scope Z_scope.

(** C35: every one of the six conversions returns the representative of the
    truncated number modulo 2^k, and is defined, exactly for the numbers whose
    integer part fits a 64-bit integer (NaN and infinities give 0). *)
Theorem C35_to_int_modular_guarded : forall b t, truncated b t ->
  (fits64 t ->
     (exists r, rjs_to_int8 b = Some r /\ modular_s 8 t r) /\
     (exists r, rjs_to_uint8 b = Some r /\ modular_u 8 t r) /\
     (exists r, rjs_to_int16 b = Some r /\ modular_s 16 t r) /\
     (exists r, rjs_to_uint16 b = Some r /\ modular_u 16 t r) /\
     (exists r, rjs_to_int32 b = Some r /\ modular_s 32 t r) /\
     (exists r, rjs_to_uint32 b = Some r /\ modular_u 32 t r)) /\
  (~ fits64 t ->
     rjs_to_int8 b = None /\ rjs_to_uint8 b = None /\ rjs_to_int16 b = None /\
     rjs_to_uint16 b = None /\ rjs_to_int32 b = None /\ rjs_to_uint32 b = None).
Proof.
  intros b t T. split; intro F.
  - repeat split; first [apply (to_int_signed 8) | apply (to_int_unsigned 8) | apply (to_int_signed 16)
      | apply (to_int_unsigned 16) | apply (to_int_signed 32) | apply (to_int_unsigned 32)]; auto; discriminate || reflexivity.
  - repeat split; first [apply (to_int_signed 8 b t) | apply (to_int_unsigned 8 b t) | apply (to_int_signed 16 b t)
      | apply (to_int_unsigned 16 b t) | apply (to_int_signed 32 b t) | apply (to_int_unsigned 32 b t)]; auto; discriminate || reflexivity.
Qed.
Print Assumptions C35_to_int_modular_guarded.

(** every double has exactly one truncation *)
Theorem C35_truncated_unique : forall b, 0 <= b < 2 ^ 64 ->
  exists t, truncated b t /\ forall t', truncated b t' -> t' = t.
Proof.
  intros b H. destruct (truncated_total b H) as [t T]. exists t. split; [exact T|].
  intros t' T'. exact (truncated_fun _ _ _ T' T).
Qed.
Print Assumptions C35_truncated_unique.

(** C35 fails for 2^63 (finite; its conversion is the undefined cast): ToInt32
    must be 0. *)
Theorem C35_to_int_large_refuted :
  exists b m e, double b false m e /\ whole m e = 2 ^ 63 /\ modular_s 32 (2 ^ 63) 0 /\ rjs_to_int32 b = None.
Proof.
  exists 0x43e0000000000000, (2 ^ 52 + 0), (0x43e - 1075). split; [|split; [|split]].
  - apply (Dnormal false 0x43e 0); split; try discriminate; reflexivity.
  - vm_compute. reflexivity.
  - split; [split; [discriminate | reflexivity]|]. exists (2 ^ 31). reflexivity.
  - vm_compute. reflexivity.
Qed.
Print Assumptions C35_to_int_large_refuted.

(** C35: ToUint8Clamp saturates and rounds to nearest, ties to even, for every
    number. *)
Theorem C35_to_uint8_clamp : forall b,
  (forall s m e, double b s m e ->
    let v := with_sign s (m * 2 ^ (e + 1074)) in
    (v <= 0 -> rjs_to_uint8_clamp b = 0) /\
    (255 * 2 ^ 1074 <= v -> rjs_to_uint8_clamp b = 255) /\
    (0 <= v <= 255 * 2 ^ 1074 -> 0 <= rjs_to_uint8_clamp b <= 255 /\
       nearest_even (if s then - m else m) e (rjs_to_uint8_clamp b))) /\
  (infinite b true -> rjs_to_uint8_clamp b = 0) /\ (infinite b false -> rjs_to_uint8_clamp b = 255) /\
  (nan b -> rjs_to_uint8_clamp b = 0).
Proof. intro b. split; [intros; apply clamp_spec; assumption | apply clamp_special]. Qed.
Print Assumptions C35_to_uint8_clamp.

(** -1.5 and 2^32 + 5; 2.5 is clamped to 2, 3.5 to 4 *)
Example C35_witness :
  truncated 0xbff8000000000000 (-1) /\ fits64 (-1) /\
  rjs_to_uint8 0xbff8000000000000 = Some 255 /\ rjs_to_int32 0x41f0000000500000 = Some 5 /\
  rjs_to_uint8_clamp 0x4004000000000000 = 2 /\ rjs_to_uint8_clamp 0x400c000000000000 = 4.
Proof.
  split; [|vm_compute; repeat split; discriminate || reflexivity].
  apply (Tfinite _ true (2 ^ 52 + 0x8000000000000) (0x3ff - 1075)).
  apply (Dnormal true 0x3ff 0x8000000000000); split; try discriminate; reflexivity.
Qed.

(** C36: << and >> are the 32-bit shifts by the count modulo 32, for all
    operands whose integer part fits 64 bits. *)
Theorem C36_left_shift_guarded : forall v1 v2 t1 t2, truncated v1 t1 -> truncated v2 t2 -> fits64 t1 -> fits64 t2 ->
  exists n1 r, modular_s 32 t1 n1 /\ number_left_shift v1 v2 = Some r /\
               modular_s 32 (n1 * 2 ^ (t2 mod 32)) r.
Proof. exact left_shift_spec. Qed.
Print Assumptions C36_left_shift_guarded.

Theorem C36_signed_right_shift_guarded : forall v1 v2 t1 t2, truncated v1 t1 -> truncated v2 t2 -> fits64 t1 -> fits64 t2 ->
  exists n1, modular_s 32 t1 n1 /\ number_signed_right_shift v1 v2 = Some (n1 / 2 ^ (t2 mod 32)).
Proof. exact signed_right_shift_spec. Qed.
Print Assumptions C36_signed_right_shift_guarded.

(** C36: >>> has a defined result only for finite operands in 0 .. 2^32-1 and
    counts in 0 .. 31, where it is correct. *)
Theorem C36_unsigned_right_shift_actual : forall v1 v2 t1 t2, truncated v1 t1 -> truncated v2 t2 ->
  forall r, number_unsigned_right_shift v1 v2 = Some r <->
    (exists s m e, double v1 s m e) /\ (exists s m e, double v2 s m e) /\
    0 <= t1 < 2 ^ 32 /\ 0 <= t2 < 32 /\ r = t1 / 2 ^ t2.
Proof. exact unsigned_right_shift_spec. Qed.
Print Assumptions C36_unsigned_right_shift_actual.

(** C36 fails: -1 >>> 0, 1 >>> 32 and NaN >>> 0 are undefined behaviour. *)
Theorem C36_unsigned_right_shift_refuted :
  number_unsigned_right_shift (dbl_of_int (-1)) (dbl_of_int 0) = None /\
  number_unsigned_right_shift (dbl_of_int 1) (dbl_of_int 32) = None /\
  number_unsigned_right_shift 0x7ff8000000000000 (dbl_of_int 0) = None /\
  truncated (dbl_of_int (-1)) (-1) /\ truncated (dbl_of_int 1) 1 /\ truncated (dbl_of_int 32) 32.
Proof.
  split; [vm_compute; reflexivity|]. split; [vm_compute; reflexivity|]. split; [vm_compute; reflexivity|].
  split; [|split]; apply truncated_of_int; reflexivity.
Qed.
Print Assumptions C36_unsigned_right_shift_refuted.

Example C36_witness :
  number_left_shift (dbl_of_int 3) (dbl_of_int 63) = Some (- 2 ^ 31) /\
  number_signed_right_shift (dbl_of_int (-5)) (dbl_of_int 33) = Some (-3) /\
  number_unsigned_right_shift (dbl_of_int 4294967295) (dbl_of_int 31) = Some 1 /\
  truncated (dbl_of_int 63) 63 /\ fits64 63.
Proof.
  split; [vm_compute; reflexivity|]. split; [vm_compute; reflexivity|]. split; [vm_compute; reflexivity|].
  split; [apply truncated_of_int; reflexivity | split; [discriminate | reflexivity]].
Qed.

(** C56: ~, &, | and ^ act on the low 32 bits of the truncated operands and the
    result is a signed 32-bit integer (operands whose integer part fits 64 bits;
    others are the undefined cast of C35). *)
Theorem C56_bitwise_guarded : forall v1 v2 t1 t2, truncated v1 t1 -> truncated v2 t2 -> fits64 t1 -> fits64 t2 ->
  (exists r, number_bitwise_not v1 = Some r /\ - 2 ^ 31 <= r < 2 ^ 31 /\
     forall i, 0 <= i < 32 -> Z.testbit r i = negb (Z.testbit t1 i)) /\
  (exists r, number_bitwise_and v1 v2 = Some r /\ - 2 ^ 31 <= r < 2 ^ 31 /\
     forall i, 0 <= i < 32 -> Z.testbit r i = andb (Z.testbit t1 i) (Z.testbit t2 i)) /\
  (exists r, number_bitwise_or v1 v2 = Some r /\ - 2 ^ 31 <= r < 2 ^ 31 /\
     forall i, 0 <= i < 32 -> Z.testbit r i = orb (Z.testbit t1 i) (Z.testbit t2 i)) /\
  (exists r, number_bitwise_xor v1 v2 = Some r /\ - 2 ^ 31 <= r < 2 ^ 31 /\
     forall i, 0 <= i < 32 -> Z.testbit r i = xorb (Z.testbit t1 i) (Z.testbit t2 i)).
Proof.
  intros v1 v2 t1 t2 T1 T2 F1 F2. split; [apply not_spec; assumption|].
  split; [|split]; apply bit2_spec; try assumption; intros x y i.
  - apply Z.land_spec.
  - apply Z.lor_spec.
  - apply Z.lxor_spec.
Qed.
Print Assumptions C56_bitwise_guarded.

Theorem C56_bitwise_large_refuted :
  exists b m e, double b false m e /\ whole m e = 2 ^ 63 /\
    number_bitwise_or b (dbl_of_int 0) = None /\ number_bitwise_not b = None.
Proof.
  exists 0x43e0000000000000, (2 ^ 52 + 0), (0x43e - 1075). split; [|split; [|split]].
  - apply (Dnormal false 0x43e 0); split; try discriminate; reflexivity.
  - vm_compute. reflexivity.
  - vm_compute. reflexivity.
  - vm_compute. reflexivity.
Qed.
Print Assumptions C56_bitwise_large_refuted.

Example C56_witness :
  number_bitwise_and (dbl_of_int 4294967295) (dbl_of_int 12) = Some 12 /\
  number_bitwise_xor (dbl_of_int (-1)) (dbl_of_int 1) = Some (-2) /\
  number_bitwise_not (dbl_of_int 4294967296) = Some (-1) /\
  truncated (dbl_of_int 4294967295) 4294967295 /\ fits64 4294967295.
Proof.
  split; [vm_compute; reflexivity|]. split; [vm_compute; reflexivity|]. split; [vm_compute; reflexivity|].
  split; [apply truncated_of_int; reflexivity | split; [discriminate | reflexivity]].
Qed.

(** C57: ToIndex accepts exactly the numbers whose integer part is in
    0 .. 2^53-1 (not an infinity) and returns it; undefined gives 0.
    ToIntegerOrInfinity truncates every number. *)
Theorem C57_to_index : forall b, 0 <= b < 2 ^ 64 -> forall i,
  rjs_to_index (Some b) = Some i <->
  truncated b i /\ 0 <= i <= 2 ^ 53 - 1 /\ (forall s, ~ infinite b s).
Proof. exact to_index_spec. Qed.
Print Assumptions C57_to_index.

Theorem C57_to_index_undefined : rjs_to_index None = Some 0.
Proof. reflexivity. Qed.
Print Assumptions C57_to_index_undefined.

Theorem C57_to_integer_or_infinity : forall b,
  (forall s m e, double b s m e -> to_integer_or_infinity b = Fin (with_sign s (whole m e))) /\
  (infinite b false -> to_integer_or_infinity b = PInf) /\
  (infinite b true -> to_integer_or_infinity b = NInf) /\
  (nan b -> to_integer_or_infinity b = Fin 0).
Proof. exact to_integer_spec. Qed.
Print Assumptions C57_to_integer_or_infinity.

Example C57_witness :
  rjs_to_index (Some 0xbfe0000000000000) = Some 0 /\ rjs_to_index (Some 0xbff0000000000000) = None /\
  rjs_to_index (Some 0x433fffffffffffff) = Some (2 ^ 53 - 1) /\ rjs_to_index (Some 0x4340000000000000) = None.
Proof. vm_compute. auto. Qed.
