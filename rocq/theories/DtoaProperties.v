(** * Number texts: properties C97, C98 and C99 *)

From Coq Require Import ZArith List Bool Lia QArith.
From Verif Require Import DtoaModel DtoaSpec DtoaProofs DtoaText DtoaShort DtoaLayout DtoaMethods DtoaIndex.
Import ListNotations.
Local Open Scope Z_scope.

(** ** C97: the text of a number *)

(** Outside of 2^54 .. 2^75 the text is the standard's layout of a digit string
    that reads back as the number, and no shorter one does. *)
Theorem C97_text_partial : forall g m e, valid (Fin g m e) -> e <= 1 \/ 23 <= e ->
  exists ds nv, number_to_string (Fin g m e) = Some (signed g (string_layout ds nv)) /\
    tidy ds /\ reads_back m e (decimal_value ds nv) /\ no_shorter (length ds) (reads_back m e).
Proof.
  intros g m e V H. destruct (array_index (Fin g m e)) as [n|] eqn:A.
  - destruct (string_index _ _ _ _ V A) as [T _].
    destruct (index_shortest _ _ _ _ V A) as (ds & nv & L & Td & E & N).
    pose proof (valid_m _ _ _ V) as M.
    destruct (array_index_value g m e n ltac:(lia) A) as (-> & _).
    exists ds, nv. rewrite T, L. split; [reflexivity|]. split; [exact Td|]. split; [|exact N].
    left. destruct (inside_self m e) as [I1 I2]. split; rewrite E; assumption.
  - destruct (shortest_guarded _ _ _ V H) as (ds & nv & E & Td & R & N).
    exists ds, nv. split; [apply string_fin; assumption|]. split; [exact Td|]. split; assumption.
Qed.
Print Assumptions C97_text_partial.

Example C97_witness :
  valid (Fin true 7205759403792794 (-56)) /\
  number_to_string (Fin true 7205759403792794 (-56)) = Some [45; 48; 46; 49].
Proof. split; [left; lia|vm_compute; reflexivity]. Qed.

(** For every number: at most 17 digits, never outside of the interval of
    decimals around the number (but possibly at its end), and no decimal inside
    of it is shorter. *)
Theorem C97_text_actual : forall g m e, valid (Fin g m e) ->
  exists ds nv, number_to_string (Fin g m e) = Some (signed g (string_layout ds nv)) /\
    tidy ds /\ (length ds <= 17)%nat /\
    within m e (decimal_value ds nv) /\ no_shorter (length ds) (inside m e).
Proof.
  intros g m e V. destruct (array_index (Fin g m e)) as [n|] eqn:A.
  - destruct (string_index _ _ _ _ V A) as [T _].
    destruct (index_shortest _ _ _ _ V A) as (ds & nv & L & Td & E & N).
    pose proof (valid_m _ _ _ V) as M.
    destruct (array_index_value g m e n ltac:(lia) A) as (-> & _).
    destruct (index_small _ _ _ _ V A) as [E1 _].
    destruct (shortest_guarded _ _ _ V ltac:(lia)) as (ds' & nv' & E' & Td' & R' & N').
    destruct (shortest_actual _ _ _ V) as (ds2 & nv2 & E2 & _ & L2 & _).
    rewrite E' in E2. injection E2 as <- <-.
    exists ds, nv. rewrite T, L. split; [reflexivity|]. split; [exact Td|].
    destruct (inside_self m e) as [I1 I2].
    assert (W : within m e (decimal_value ds nv)) by (split; rewrite E; apply Qlt_le_weak; assumption).
    split.
    + destruct (Nat.le_gt_cases (length ds) 17) as [Q|Q]; [exact Q|exfalso].
      destruct Td' as (F' & N0' & H0' & _).
      apply (N (value 10 ds') (nv' - Z.of_nat (length ds'))); [| | |exact R'].
      * pose proof (value_pos 10 ds' ltac:(lia) F' N0' H0'). lia.
      * lia.
      * pose proof (rval_bound (rev ds')) as B.
        rewrite <- value_rev, rev_involutive, zlen_rev in B. unfold zlen in B.
        apply Z.lt_le_trans with (10 ^ Z.of_nat (length ds')).
        -- apply B. unfold digit_list in F'. apply Forall_rev. exact F'.
        -- apply Z.pow_le_mono_r; lia.
    + split; [exact W|]. intros s t S1 K1 SL IN. apply (N s t S1 K1 SL). left. exact IN.
  - destruct (shortest_actual _ _ _ V) as (ds & nv & E & Td & L & R & W & N).
    exists ds, nv. split; [apply string_fin; assumption|]. split; [exact Td|]. split; [exact L|]. split; assumption.
Qed.
Print Assumptions C97_text_actual.

(** The end of the interval belongs to a number with an even significand only:
    18014398509482012 has an odd one, and its text is that of another number. *)
Theorem C97_refuted : exists m e ds nv, valid (Fin false m e) /\
  number_to_string (Fin false m e) = Some (string_layout ds nv) /\
  ~ reads_back m e (decimal_value ds nv).
Proof.
  exists 4503599627370503, 2, [1;8;0;1;4;3;9;8;5;0;9;4;8;2;0;1], 17.
  split; [left; lia|]. split; [vm_compute; reflexivity|].
  intros [[A B]|[_ C]]; [vm_compute in A; discriminate|discriminate C].
Qed.
Print Assumptions C97_refuted.

(** 36028797018963984 has an even one, and its text is longer than needed. *)
Theorem C97_shortest_refuted : exists m e ds nv s t, valid (Fin false m e) /\
  number_to_string (Fin false m e) = Some (string_layout ds nv) /\ tidy ds /\
  0 < s < 10 ^ (Z.of_nat (length ds) - 1) /\ reads_back m e (dec_q s t).
Proof.
  exists 4503599627370498, 3, [3;6;0;2;8;7;9;7;0;1;8;9;6;3;9;8;4], 17, 3602879701896398, 1.
  split; [left; lia|]. split; [vm_compute; reflexivity|].
  split; [repeat split; try discriminate; repeat (constructor; [lia|]); constructor|].
  split; [cbn; lia|]. right. split; [|reflexivity]. split; vm_compute; discriminate.
Qed.
Print Assumptions C97_shortest_refuted.

Theorem C97_special : forall g,
  number_to_string Nan = Some [78; 97; 78] /\
  number_to_string (Inf g) = Some (signed g [73; 110; 102; 105; 110; 105; 116; 121]) /\
  number_to_string (Zero g) = Some [48].
Proof. intros g. destruct g; repeat split; reflexivity. Qed.
Print Assumptions C97_special.

(** The 64 characters on the stack are enough, and no digit is read behind the
    end of the digit string. *)
Theorem C97_buffer : forall x, valid x -> exists t, number_to_string x = Some t /\ (length t < 64)%nat.
Proof.
  intros x V. pose proof (string_fits x V) as F.
  destruct (number_to_string x) as [t|]; [|contradiction].
  exists t. split; [reflexivity|]. cbn in F. lia.
Qed.
Print Assumptions C97_buffer.

(** ** C98: toFixed, toExponential, toPrecision *)

(** The engine rounds a number in the middle of two to the even one. *)
Theorem C98_fixed_actual : forall g m e f, valid (Fin g m e) -> 0 <= f <= 100 ->
  huge (Fin g m e) = false ->
  let n := round_even (scaled_b m e f) (scaled_s e f) in
  nearest_even (scaled_b m e f) (scaled_s e f) n /\
  to_fixed (Fin g m e) (Int f) = Text (signed g (fixed_text n f)).
Proof.
  intros g m e f V Hf Hh n. split; [apply nearest_even_ok, scaled_s_pos|].
  apply to_fixed_fin; assumption.
Qed.
Print Assumptions C98_fixed_actual.

(** The standard's text when there are no two, or the larger is even. *)
Theorem C98_fixed_partial : forall g m e f, valid (Fin g m e) -> 0 <= f <= 100 ->
  huge (Fin g m e) = false -> tie_down (scaled_b m e f) (scaled_s e f) = false ->
  exists n, nearest_up (scaled_b m e f) (scaled_s e f) n /\
    to_fixed (Fin g m e) (Int f) = Text (signed g (fixed_text n f)).
Proof.
  intros g m e f V Hf Hh T. exists (round_even (scaled_b m e f) (scaled_s e f)).
  split; [|apply to_fixed_fin; assumption].
  rewrite no_tie_same by exact T. apply nearest_up_ok, scaled_s_pos.
Qed.
Print Assumptions C98_fixed_partial.

Example C98_witness :
  valid (Fin true 5488762045857792 (-42)) /\ huge (Fin true 5488762045857792 (-42)) = false /\
  tie_down (scaled_b 5488762045857792 (-42) 2) (scaled_s (-42) 2) = false /\
  to_fixed (Fin true 5488762045857792 (-42)) (Int 2) = Text [45; 49; 50; 52; 56; 46; 48; 48].
Proof. repeat split; try (vm_compute; reflexivity). left; lia. Qed.

(** (2.5).toFixed(0) is 2, the standard's 3. *)
Theorem C98_fixed_refuted : exists m e f n, valid (Fin false m e) /\ 0 <= f <= 100 /\
  huge (Fin false m e) = false /\ nearest_up (scaled_b m e f) (scaled_s e f) n /\
  to_fixed (Fin false m e) (Int f) <> Text (fixed_text n f).
Proof.
  exists 5629499534213120, (-51), 0, 3. split; [left; lia|]. split; [lia|].
  split; [reflexivity|]. split.
  - change 3 with (round_up (scaled_b 5629499534213120 (-51) 0) (scaled_s (-51) 0)).
    apply nearest_up_ok, scaled_s_pos.
  - vm_compute. discriminate.
Qed.
Print Assumptions C98_fixed_refuted.

(** Zero: the standard drops the sign, toFixed keeps it. *)
Theorem C98_zero : forall g f, 0 <= f <= 100 ->
  to_fixed (Zero g) (Int f) = Text (signed g (fixed_text 0 f)) /\
  to_exponential (Zero g) (Some (Int f)) = Text (exponential_text (zeros (f + 1)) 0 f) /\
  (1 <= f -> to_precision (Zero g) (Some (Int f)) = Text (precision_text (zeros f) 0 f)).
Proof.
  intros g f H. split; [apply to_fixed_zero; exact H|].
  split; [apply to_exponential_zero; exact H|]. intros P. apply to_precision_zero. lia.
Qed.
Print Assumptions C98_zero.

Theorem C98_zero_refuted : exists f, 0 <= f <= 100 /\
  to_fixed (Zero true) (Int f) <> Text (fixed_text 0 f).
Proof. exists 2. split; [lia|]. vm_compute. discriminate. Qed.
Print Assumptions C98_zero_refuted.

(** Arguments out of range, numbers that are not finite or too large, and no
    argument. *)
Theorem C98_other : forall x a, 
  (to_fixed x a = RangeError <-> ~ (exists f, a = Int f /\ 0 <= f <= 100)) /\
  (finite x = true -> arg_lt a 0 = true \/ arg_gt a 100 = true -> to_exponential x (Some a) = RangeError) /\
  (finite x = true -> arg_lt a 1 = true \/ arg_gt a 100 = true -> to_precision x (Some a) = RangeError) /\
  (finite x = false -> to_exponential x (Some a) = of_text (number_to_string x) /\
                       to_exponential x None = of_text (number_to_string x) /\
                       to_precision x (Some a) = of_text (number_to_string x)) /\
  (forall f, 0 <= f <= 100 -> finite x = false \/ huge x = true ->
     to_fixed x (Int f) = of_text (number_to_string x)) /\
  to_precision x None = of_text (number_to_string x).
Proof.
  intros x a. split; [|split; [|split; [|split; [|split]]]].
  - assert (NE : of_text (number_to_string x) <> RangeError) by (destruct (number_to_string x); discriminate).
    split.
    + intros H. intros (f & -> & R). unfold to_fixed in H.
      destruct (Z.ltb_spec f 0); [lia|]. destruct (Z.ltb_spec 100 f); [lia|]. cbn [orb] in H.
      destruct (_ || _); [contradiction|]. destruct (dtoa_num _ _) as [[ds nv]|]; [|discriminate].
      destruct (option_map _ _); discriminate.
    + intros H. destruct a as [f| |]; try reflexivity. unfold to_fixed.
      destruct (Z.ltb_spec f 0); [reflexivity|]. destruct (Z.ltb_spec 100 f); [reflexivity|].
      exfalso. apply H. exists f. split; [reflexivity|lia].
  - intros F H. unfold to_exponential. rewrite F. cbn [negb].
    destruct H as [-> | ->]; [reflexivity|]. rewrite orb_true_r. reflexivity.
  - intros F H. unfold to_precision. rewrite F. cbn [negb].
    destruct H as [-> | ->]; [reflexivity|]. rewrite orb_true_r. reflexivity.
  - intros F. unfold to_exponential, to_precision. rewrite F. repeat split.
  - intros f R H. unfold to_fixed. destruct (Z.ltb_spec f 0); [lia|]. destruct (Z.ltb_spec 100 f); [lia|].
    cbn [orb]. destruct H as [-> | ->]; [reflexivity|]. rewrite orb_true_r. reflexivity.
  - reflexivity.
Qed.
Print Assumptions C98_other.

(** f + 1 digits n and an exponent ex, as close to the number as possible. *)
Theorem C98_exponential_actual : forall g m e f, valid (Fin g m e) -> 0 <= f <= 100 ->
  exists k n ex, first_exponent m e k /\
    carried (f + 1) k (round_even (scaled_b m e (f - k)) (scaled_s e (f - k))) = (n, ex) /\
    closest m e (f + 1) n ex /\
    to_exponential (Fin g m e) (Some (Int f)) = Text (signed g (exponential_text (decimal n) ex f)).
Proof.
  intros g m e f V Hf. pose proof (valid_m _ _ _ V) as M.
  destruct (to_exponential_fin g m e f V Hf) as (n & ex & C & T).
  exists (kx m e), n, ex. split; [apply kx_first; lia|]. split; [exact C|]. split; [|exact T].
  apply (even_closest m e (kx m e)); [apply kx_first; lia|lia|].
  replace (f + 1 - 1 - kx m e) with (f - kx m e) by ring. exact C.
Qed.
Print Assumptions C98_exponential_actual.

(** The standard's digits when there are no two, or the larger is even. *)
Theorem C98_exponential_partial : forall g m e f k, valid (Fin g m e) -> 0 <= f <= 100 ->
  first_exponent m e k -> tie_down (scaled_b m e (f - k)) (scaled_s e (f - k)) = false ->
  exists n ex, closest m e (f + 1) n ex /\ larger_of_two m e (f + 1) n ex /\
    to_exponential (Fin g m e) (Some (Int f)) = Text (signed g (exponential_text (decimal n) ex f)).
Proof.
  intros g m e f k V Hf K T. pose proof (valid_m _ _ _ V) as M.
  destruct (to_exponential_fin g m e f V Hf) as (n & ex & C & E). exists n, ex.
  pose proof (first_unique _ _ _ _ K (kx_first m e ltac:(lia))) as ->.
  rewrite no_tie_same in C by exact T.
  replace (f - kx m e) with (f + 1 - 1 - kx m e) in C by ring.
  destruct (up_larger m e (kx m e) (f + 1) n ex K ltac:(lia) C) as [A B].
  split; [exact A|]. split; [exact B|exact E].
Qed.
Print Assumptions C98_exponential_partial.

(** Without an argument: the digits of the number's text. *)
Theorem C98_exponential_all : forall g m e, valid (Fin g m e) -> e <= 1 \/ 23 <= e ->
  exists ds nv, tidy ds /\ reads_back m e (decimal_value ds nv) /\ no_shorter (length ds) (reads_back m e) /\
    to_exponential (Fin g m e) None =
    Text (signed g (exponential_text (text ds) (nv - 1) (len ds - 1))).
Proof.
  intros g m e V H. destruct (shortest_guarded _ _ _ V H) as (ds & nv & E & T & R & N).
  exists ds, nv. split; [exact T|]. split; [exact R|]. split; [exact N|].
  apply to_exponential_all; assumption.
Qed.
Print Assumptions C98_exponential_all.

Theorem C98_precision_actual : forall g m e p, valid (Fin g m e) -> 1 <= p <= 100 ->
  exists k n ex, first_exponent m e k /\
    carried p k (round_even (scaled_b m e (p - 1 - k)) (scaled_s e (p - 1 - k))) = (n, ex) /\
    closest m e p n ex /\
    to_precision (Fin g m e) (Some (Int p)) = Text (signed g (precision_text (decimal n) ex p)).
Proof.
  intros g m e p V Hp. pose proof (valid_m _ _ _ V) as M.
  destruct (to_precision_fin g m e p V Hp) as (n & ex & C & T).
  exists (kx m e), n, ex. split; [apply kx_first; lia|]. split; [exact C|]. split; [|exact T].
  apply (even_closest m e (kx m e)); [apply kx_first; lia|lia|exact C].
Qed.
Print Assumptions C98_precision_actual.

Theorem C98_precision_partial : forall g m e p k, valid (Fin g m e) -> 1 <= p <= 100 ->
  first_exponent m e k -> tie_down (scaled_b m e (p - 1 - k)) (scaled_s e (p - 1 - k)) = false ->
  exists n ex, closest m e p n ex /\ larger_of_two m e p n ex /\
    to_precision (Fin g m e) (Some (Int p)) = Text (signed g (precision_text (decimal n) ex p)).
Proof.
  intros g m e p k V Hp K T. pose proof (valid_m _ _ _ V) as M.
  destruct (to_precision_fin g m e p V Hp) as (n & ex & C & E). exists n, ex.
  pose proof (first_unique _ _ _ _ K (kx_first m e ltac:(lia))) as ->.
  rewrite no_tie_same in C by exact T.
  destruct (up_larger m e (kx m e) p n ex K ltac:(lia) C) as [A B].
  split; [exact A|]. split; [exact B|exact E].
Qed.
Print Assumptions C98_precision_partial.

Example C98_precision_witness :
  valid (Fin false 5557689131932058 (-52)) /\
  first_exponent 5557689131932058 (-52) 0 /\
  tie_down (scaled_b 5557689131932058 (-52) 2) (scaled_s (-52) 2) = false /\
  to_precision (Fin false 5557689131932058 (-52)) (Some (Int 3)) = Text [49; 46; 50; 51] /\
  to_exponential (Fin false 5557689131932058 (-52)) (Some (Int 2)) = Text [49; 46; 50; 51; 101; 43; 48].
Proof.
  split; [left; lia|]. split; [split; [vm_compute; discriminate|vm_compute; reflexivity]|].
  repeat split; vm_compute; reflexivity.
Qed.

(** (25).toExponential(0) and (25).toPrecision(1) are 2e+1, the standard's 3e+1. *)
Theorem C98_digits_refuted : exists m e, valid (Fin false m e) /\
  closest m e 1 3 1 /\ larger_of_two m e 1 3 1 /\
  to_exponential (Fin false m e) (Some (Int 0)) <> Text (exponential_text (decimal 3) 1 0) /\
  to_precision (Fin false m e) (Some (Int 1)) <> Text (precision_text (decimal 3) 1 1).
Proof.
  exists 7036874417766400, (-48). split; [left; lia|].
  assert (F : first_exponent 7036874417766400 (-48) 1)
    by (split; [vm_compute; discriminate|vm_compute; reflexivity]).
  destruct (up_larger 7036874417766400 (-48) 1 1 3 1 F ltac:(lia) ltac:(vm_compute; reflexivity)) as [A B].
  split; [exact A|]. split; [exact B|]. split; vm_compute; discriminate.
Qed.
Print Assumptions C98_digits_refuted.

(** The 256 characters on the stack are enough for all three. *)
Theorem C98_buffer : forall x a o t, valid x ->
  (to_fixed x a <> Undefined /\ to_exponential x o <> Undefined /\ to_precision x o <> Undefined) /\
  (to_fixed x a = Text t \/ to_exponential x o = Text t \/ to_precision x o = Text t ->
   (length t < 256)%nat).
Proof.
  intros x a o t V. pose proof (fixed_fits x a V) as A. pose proof (exponential_fits x o V) as B.
  pose proof (precision_fits x o V) as C. split.
  - repeat split; intros E; [rewrite E in A|rewrite E in B|rewrite E in C]; assumption.
  - intros [E|[E|E]]; [rewrite E in A|rewrite E in B|rewrite E in C]; assumption.
Qed.
Print Assumptions C98_buffer.

(** ** C99: toString with a radix *)

(** Integers below 2^63. *)
Theorem C99_integer_partial : forall g m e r n, valid (Fin g m e) -> 2 <= r <= 36 -> r <> 10 ->
  (bin_q m e == inject_Z n)%Q -> n < 2 ^ 63 ->
  to_string (Fin g m e) (Some (Int r)) = Text (signed g (text (numeral r n))) /\
  value r (numeral r n) = n /\ digit_list r (numeral r n) /\ hd 0 (numeral r n) <> 0.
Proof.
  intros g m e r n V Hr N10 E B. pose proof (valid_m _ _ _ V) as M.
  assert (X : bx m e = n * sx e).
  { pose proof (scaled_x m e 0) as S. unfold scaled_s, scaled_b in S.
    change (10 ^ Z.max (- 0) 0) with 1 in S. change (10 ^ Z.max 0 0) with 1 in S.
    rewrite !Z.mul_1_r in S. change ((10 # 1) ^ 0)%Q with 1%Q in S. rewrite Qmult_1_r, E in S.
    rewrite <- inject_Z_mult in S. apply (proj1 (inject_Z_injective _ _)) in S.
    unfold bx, sx. symmetry. exact S. }
  assert (NP : 0 < n).
  { pose proof (sx_pos e). pose proof (bx_pos m e ltac:(lia)). nia. }
  destruct (numeral_ok r n ltac:(lia) ltac:(lia)) as (V1 & F & _ & L).
  split; [apply to_string_integer; assumption|]. split; [exact V1|]. split; [exact F|exact (L NP)].
Qed.
Print Assumptions C99_integer_partial.

Example C99_witness :
  valid (Fin true 4503599627370496 (-44)) /\ (bin_q 4503599627370496 (-44) == inject_Z 256)%Q /\
  to_string (Fin true 4503599627370496 (-44)) (Some (Int 16)) = Text [45; 49; 48; 48].
Proof. split; [left; lia|]. split; vm_compute; reflexivity. Qed.

(** What happens to every finite number: the engine writes numbers that are not
    integers with radix 10, and for numbers from 2^63 the behaviour is
    undefined. *)
Theorem C99_actual : forall g m e r, valid (Fin g m e) -> 2 <= r <= 36 -> r <> 10 ->
  to_string (Fin g m e) (Some (Int r)) =
  if 2 ^ 63 <=? bx m e / sx e then Undefined
  else if bx m e mod sx e =? 0 then Text (signed g (text (numeral r (bx m e / sx e))))
  else of_text (number_to_string (Fin g m e)).
Proof. exact to_string_other. Qed.
Print Assumptions C99_actual.

(** Zero, radix 10, no radix, a radix out of range. *)
Theorem C99_other : forall x g r a,
  (2 <= r <= 36 -> to_string (Zero g) (Some (Int r)) = Text [48]) /\
  to_string x (Some (Int 10)) = of_text (number_to_string x) /\
  to_string x None = of_text (number_to_string x) /\
  (arg_lt a 2 = true \/ arg_gt a 36 = true -> to_string x (Some a) = RangeError).
Proof.
  intros x g r a. split; [apply to_string_zero|]. split; [reflexivity|]. split; [reflexivity|].
  intros H. unfold to_string. destruct H as [-> | ->]; [reflexivity|]. rewrite orb_true_r. reflexivity.
Qed.
Print Assumptions C99_other.

(** (0.5).toString(2) has a character that is no digit of the radix. *)
Theorem C99_fraction_refuted : exists m e r t c, valid (Fin false m e) /\ 2 <= r <= 36 /\
  to_string (Fin false m e) (Some (Int r)) = Text t /\ In c t /\ c <> 46 /\
  ~ (exists d, 0 <= d < r /\ c = character d).
Proof.
  exists 4503599627370496, (-53), 2, [48; 46; 53], 53. split; [left; lia|]. split; [lia|].
  split; [vm_compute; reflexivity|]. split; [cbn; tauto|]. split; [lia|].
  intros (d & R & C). assert (D : d = 0 \/ d = 1) by lia. destruct D as [-> | ->]; discriminate.
Qed.
Print Assumptions C99_fraction_refuted.

(** NaN, Infinity and 2^63: undefined. *)
Theorem C99_undefined_refuted : forall r, 2 <= r <= 36 -> r <> 10 ->
  to_string Nan (Some (Int r)) = Undefined /\
  (forall g, to_string (Inf g) (Some (Int r)) = Undefined) /\
  (forall g, to_string (Fin g (2 ^ 52) 11) (Some (Int r)) = Undefined).
Proof.
  intros r Hr N. split; [|split].
  - unfold to_string. cbn [arg_lt arg_gt arg_int]. destruct (Z.ltb_spec r 2); [lia|].
    destruct (Z.ltb_spec 36 r); [lia|]. destruct (Z.eqb_spec r 10); [lia|]. reflexivity.
  - intros g. unfold to_string. cbn [arg_lt arg_gt arg_int]. destruct (Z.ltb_spec r 2); [lia|].
    destruct (Z.ltb_spec 36 r); [lia|]. destruct (Z.eqb_spec r 10); [lia|]. reflexivity.
  - intros g. rewrite to_string_other; [reflexivity| |exact Hr|exact N].
    left; lia.
Qed.
Print Assumptions C99_undefined_refuted.
