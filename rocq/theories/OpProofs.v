(** Proofs about the operators. *)
From Coq Require Import ZArith List Bool Lia.
From Verif Require Import NumModel OpModel OpSpec.
Import ListNotations.
Open Scope Z_scope.

(** ** Numbers as quantities *)
Definition ext_cmp (a b : ext) : cmp :=
  match a, b with
  | NegInf, NegInf => EQUAL
  | NegInf, _ => LESS
  | Fin x, Fin y => of_comparison (x ?= y)
  | Fin _, PosInf => LESS
  | Fin _, NegInf => GREATER
  | PosInf, PosInf => EQUAL
  | PosInf, _ => GREATER
  end.
Definition opt_cmp (a b : option ext) : cmp :=
  match a, b with Some x, Some y => ext_cmp x y | _, _ => UNDEFINED end.

Lemma unit_pos : 0 < unit.
Proof. unfold unit. apply Z.pow_pos_nonneg; lia. Qed.
Lemma unit_eq : 2 ^ 1074 = unit.
Proof. reflexivity. Qed.
Global Opaque unit.

Lemma of_comparison_less x y : of_comparison (x ?= y) = LESS <-> x < y.
Proof. destruct (Z.compare_spec x y); cbn; split; intros; try lia; try discriminate; auto. Qed.
Lemma of_comparison_greater x y : of_comparison (x ?= y) = GREATER <-> y < x.
Proof. destruct (Z.compare_spec x y); cbn; split; intros; try lia; try discriminate; auto. Qed.
Lemma of_comparison_equal x y : of_comparison (x ?= y) = EQUAL <-> x = y.
Proof. destruct (Z.compare_spec x y); cbn; split; intros; try lia; try discriminate; auto. Qed.

Lemma ext_less a b : ext_cmp a b = LESS <-> ext_lt a b.
Proof.
  destruct a, b; cbn [ext_cmp ext_lt]; try (split; [discriminate|contradiction]);
    try (split; trivial; reflexivity). apply of_comparison_less.
Qed.
Lemma ext_greater a b : ext_cmp a b = GREATER <-> ext_lt b a.
Proof.
  destruct a, b; cbn [ext_cmp ext_lt]; try (split; [discriminate|contradiction]);
    try (split; trivial; reflexivity). apply of_comparison_greater.
Qed.
Lemma ext_equal a b : ext_cmp a b = EQUAL <-> a = b.
Proof.
  destruct a, b; cbn [ext_cmp]; try (split; [discriminate|discriminate]);
    try (split; trivial; reflexivity).
  rewrite of_comparison_equal. split; [intros ->; reflexivity|intros [= ->]; reflexivity].
Qed.
Lemma ext_defined a b : ext_cmp a b <> UNDEFINED.
Proof. destruct a, b; cbn; try discriminate. destruct (z ?= z0); discriminate. Qed.
Lemma ext_cmp_swap a b : swap (ext_cmp a b) = ext_cmp b a.
Proof.
  destruct a, b; try reflexivity. cbn [ext_cmp]. rewrite (Z.compare_antisym z z0).
  destruct (z ?= z0); reflexivity.
Qed.

Lemma dexp_range b : 0 <= dexp b < 2048.
Proof. unfold dexp. change 2048 with (2 ^ 11). apply Z.mod_pos_bound; lia. Qed.
Lemma dman_range b : 0 <= dman b < 2 ^ 52.
Proof. unfold dman. apply Z.mod_pos_bound; lia. Qed.
Definition top : Z := 2 ^ 52 * 2 ^ 2046.
Lemma dmag_inf b : is_inf b = true -> dmag b = top.
Proof.
  unfold is_inf. intros H. apply andb_true_iff in H. destruct H as [H1 H2].
  apply Z.eqb_eq in H1. apply Z.eqb_eq in H2. unfold dmag, top.
  rewrite H1, H2. rewrite Z.add_0_r. reflexivity.
Qed.
Lemma dmag_finite b : is_nan b = false -> is_inf b = false -> 0 <= dmag b < top.
Proof.
  unfold is_nan, is_inf. intros H1 H2.
  assert (He : dexp b <> 2047).
  { intros E. rewrite E in *. cbn [Z.eqb] in *. destruct (dman b =? 0); discriminate. }
  pose proof (dexp_range b). pose proof (dman_range b).
  unfold dmag, top. destruct (Z.eqb_spec (dexp b) 0).
  - split; [lia|]. apply Z.lt_le_trans with (2 ^ 52); [lia|].
    rewrite <- (Z.mul_1_r (2 ^ 52)) at 1. apply Z.mul_le_mono_nonneg_l; [lia|].
    assert (0 < 2 ^ 2046) by (apply Z.pow_pos_nonneg; lia). lia.
  - assert (P : 0 < 2 ^ (dexp b - 1)) by (apply Z.pow_pos_nonneg; lia).
    assert (L : 2 ^ (dexp b - 1) <= 2 ^ 2045) by (apply Z.pow_le_mono_r; lia).
    split; [apply Z.mul_nonneg_nonneg; lia|].
    replace (2 ^ 52 * 2 ^ 2046) with (2 ^ 53 * 2 ^ 2045)
      by (rewrite <- !Z.pow_add_r by lia; reflexivity).
    apply Z.lt_le_trans with (2 ^ 53 * 2 ^ (dexp b - 1)).
    + apply Z.mul_lt_mono_pos_r; [assumption|]. change (2 ^ 53) with (2 ^ 52 + 2 ^ 52). lia.
    + apply Z.mul_le_mono_nonneg_l; [lia|assumption].
Qed.
Lemma top_pos : 0 < top.
Proof. unfold top. apply Z.mul_pos_pos; [lia|apply Z.pow_pos_nonneg; lia]. Qed.
Global Opaque top.

Lemma nan_value b : is_nan b = true <-> number_value b = None.
Proof.
  unfold number_value. destruct (is_nan b); [split; reflexivity|].
  destruct (is_inf b); split; discriminate.
Qed.
Lemma number_compare_ok a b :
  number_compare a b = opt_cmp (number_value a) (number_value b).
Proof.
  unfold number_compare, number_value, c_eq, c_lt.
  destruct (is_nan a) eqn:Na; [reflexivity|].
  destruct (is_nan b) eqn:Nb; cbn [orb].
  { destruct (is_inf a); reflexivity. }
  pose proof top_pos as T.
  assert (C : forall x y, (if x =? y then EQUAL else if x <? y then LESS else GREATER)
                          = of_comparison (x ?= y)).
  { intros x y. destruct (Z.compare_spec x y), (Z.eqb_spec x y), (Z.ltb_spec x y);
      try lia; reflexivity. }
  rewrite C.
  destruct (is_inf a) eqn:Ia; destruct (is_inf b) eqn:Ib; unfold dval.
  - rewrite !dmag_inf by assumption. destruct (dsign a), (dsign b); cbn [opt_cmp ext_cmp];
      first [apply of_comparison_equal|apply of_comparison_less|apply of_comparison_greater]; lia.
  - rewrite (dmag_inf a) by assumption. pose proof (dmag_finite b Nb Ib).
    destruct (dsign a), (dsign b); cbn [opt_cmp ext_cmp];
      first [apply of_comparison_less; lia|apply of_comparison_greater; lia].
  - rewrite (dmag_inf b) by assumption. pose proof (dmag_finite a Na Ia).
    destruct (dsign a), (dsign b); cbn [opt_cmp ext_cmp];
      first [apply of_comparison_less; lia|apply of_comparison_greater; lia].
  - reflexivity.
Qed.
Lemma big_compare_number_ok z n :
  big_compare_number z n = opt_cmp (Some (integer_value z)) (number_value n).
Proof.
  unfold big_compare_number, number_value, integer_value. rewrite unit_eq.
  destruct (is_nan n); [reflexivity|]. destruct (is_inf n).
  { destruct (dsign n); reflexivity. }
  cbn [opt_cmp ext_cmp]. unfold big_compare, dtrunc.
  pose proof unit_pos as U. set (v := dval n). set (t := Z.quot v unit).
  assert (Hq : v = unit * t + Z.rem v unit) by (apply Z.quot_rem'; lia).
  assert (Hr : - unit < Z.rem v unit < unit).
  { pose proof (Z.rem_bound_abs v unit ltac:(lia)). lia. }
  assert (Hs : (0 <= t /\ 0 <= Z.rem v unit) \/ (t <= 0 /\ Z.rem v unit <= 0)).
  { destruct (Z.le_ge_cases 0 v).
    - left. split; [apply Z.quot_pos; lia|apply Z.rem_nonneg; lia].
    - right. split.
      + unfold t. apply Z.quot_le_upper_bound; lia.
      + apply Z.rem_nonpos; lia. }
  set (r := Z.rem v unit) in *. clearbody r t v.
  destruct (Z.compare_spec z t) as [E|E|E]; cbn [of_comparison].
  - subst z. destruct (Z.ltb_spec (t * unit) v).
    + symmetry. apply of_comparison_less. assumption.
    + destruct (Z.ltb_spec v (t * unit)).
      * symmetry. apply of_comparison_greater. assumption.
      * symmetry. apply of_comparison_equal. lia.
  - symmetry. apply of_comparison_less. nia.
  - symmetry. apply of_comparison_greater. nia.
Qed.
Lemma big_compare_ok a b :
  big_compare a b = ext_cmp (integer_value a) (integer_value b).
Proof.
  unfold big_compare, integer_value. cbn [ext_cmp]. rewrite unit_eq. pose proof unit_pos.
  destruct (Z.compare_spec a b) as [E|E|E]; cbn; symmetry.
  - apply of_comparison_equal. subst. reflexivity.
  - apply of_comparison_less. nia.
  - apply of_comparison_greater. nia.
Qed.

(** ** Strings *)
Lemma string_equal_ok a b : string_equal a b = true <-> a = b.
Proof.
  revert b. induction a as [|x a IH]; intros [|y b]; cbn [string_equal].
  - split; reflexivity.
  - split; discriminate.
  - split; discriminate.
  - rewrite andb_true_iff, Z.eqb_eq, IH. split.
    + intros [-> ->]. reflexivity.
    + intros [= -> ->]. split; reflexivity.
Qed.
Lemma text_lt_cons x a b : text_lt (x :: a) (x :: b) <-> text_lt a b.
Proof.
  unfold text_lt. split.
  - intros [(c & t & E)|(p & c & d & s & t & E1 & E2 & L)].
    + left. cbn in E. injection E as E. eauto.
    + right. destruct p as [|q p]; cbn in E1, E2.
      * injection E1 as -> ->. injection E2 as -> ->. lia.
      * injection E1 as -> ->. injection E2 as ->. exists p, c, d, s, t. auto.
  - intros [(c & t & ->)|(p & c & d & s & t & -> & -> & L)].
    + left. exists c, t. reflexivity.
    + right. exists (x :: p), c, d, s, t. auto.
Qed.
Lemma text_lt_head x y a b : x <> y -> text_lt (x :: a) (y :: b) <-> x < y.
Proof.
  intros N. unfold text_lt. split.
  - intros [(c & t & E)|(p & c & d & s & t & E1 & E2 & L)].
    + cbn in E. injection E as E1 E2. congruence.
    + destruct p as [|q p]; cbn in E1, E2.
      * injection E1 as -> ->. injection E2 as -> ->. assumption.
      * injection E1 as -> ->. injection E2 as -> ->. congruence.
  - intros L. right. exists [], x, y, a, b. auto.
Qed.
Lemma text_lt_nil_r a : ~ text_lt a [].
Proof.
  intros [(c & t & E)|(p & c & d & s & t & E1 & E2 & L)].
  - destruct a; discriminate.
  - destruct p; discriminate.
Qed.
Lemma text_lt_nil_l y b : text_lt [] (y :: b).
Proof. left. exists y, b. reflexivity. Qed.
Lemma string_compare_ok a b :
  (string_compare a b = LESS <-> text_lt a b) /\
  (string_compare a b = GREATER <-> text_lt b a) /\
  (string_compare a b = EQUAL <-> a = b) /\ string_compare a b <> UNDEFINED.
Proof.
  revert b. induction a as [|x a IH]; intros [|y b]; cbn [string_compare].
  - split; [|split; [|split]]; try (split; [discriminate|intros H; exfalso; eapply text_lt_nil_r; eauto]).
    + split; reflexivity.
    + discriminate.
  - split; [|split; [|split]].
    + split; [intros _; apply text_lt_nil_l|reflexivity].
    + split; [discriminate|intros H; exfalso; eapply text_lt_nil_r; eauto].
    + split; discriminate.
    + discriminate.
  - split; [|split; [|split]].
    + split; [discriminate|intros H; exfalso; eapply text_lt_nil_r; eauto].
    + split; [intros _; apply text_lt_nil_l|reflexivity].
    + split; discriminate.
    + discriminate.
  - destruct (Z.eqb_spec x y) as [->|N].
    + rewrite !text_lt_cons. destruct (IH b) as (A & B & C & D).
      split; [exact A|]. split; [exact B|]. split; [|exact D].
      rewrite C. split; [intros ->; reflexivity|intros [= ->]; reflexivity].
    + rewrite (text_lt_head x y) by assumption. rewrite (text_lt_head y x) by congruence.
      destruct (Z.ltb_spec x y).
      * split; [|split; [|split]]; try (split; [discriminate|]); try lia; try discriminate.
        -- split; [lia|reflexivity].
        -- intros [= E1 E2]. congruence.
      * split; [|split; [|split]]; try (split; [discriminate|]); try lia; try discriminate.
        -- split; [lia|reflexivity].
        -- intros [= E1 E2]. congruence.
Qed.

Lemma answers_true (P : Prop) : P -> answers P (Ok true).
Proof. intros H. exists true. split; [reflexivity|]. tauto. Qed.
Lemma answers_false (P : Prop) : ~ P -> answers P (Ok false).
Proof. intros H. exists false. split; [reflexivity|]. split; [discriminate|contradiction]. Qed.
Lemma answers_iff (P : Prop) b : (b = true <-> P) -> answers P (Ok b).
Proof. intros H. exists b. auto. Qed.
Lemma answers_equiv (P Q : Prop) r : (P <-> Q) -> answers P r -> answers Q r.
Proof. intros E (b & -> & H). exists b. split; [reflexivity|]. tauto. Qed.

Lemma is_equal_true c : is_equal c = true <-> c = EQUAL.
Proof. destruct c; cbn; split; congruence. Qed.
Lemma opt_equal p q : opt_cmp p q = EQUAL <-> exists x, p = Some x /\ q = Some x.
Proof.
  destruct p as [x|], q as [y|]; cbn; try (split; [discriminate|intros (z & A & B); discriminate]).
  rewrite ext_equal. split.
  - intros ->. eauto.
  - intros (z & [= ->] & [= ->]). reflexivity.
Qed.

(** ** [===] *)
Lemma strict_num a b :
  (is_equal (number_compare a b) = true) <->
  exists q, number_value a = Some q /\ number_value b = Some q.
Proof. rewrite is_equal_true, number_compare_ok, opt_equal. reflexivity. Qed.
Lemma integer_inj a b : integer_value a = integer_value b <-> a = b.
Proof.
  unfold integer_value. rewrite unit_eq. pose proof unit_pos. split.
  - intros [= E]. nia.
  - intros ->. reflexivity.
Qed.
Lemma strict_big a b : is_equal (big_compare a b) = true <-> a = b.
Proof. rewrite is_equal_true, big_compare_ok, ext_equal. apply integer_inj. Qed.
Lemma strictly_equal_ok x y : answers (strict x y) (strictly_equal x y).
Proof.
  unfold strictly_equal.
  destruct x, y; cbn [ty vty_eqb negb same_value_non_numeric strict];
    try (apply answers_false; tauto); try (apply answers_true; exact I).
  - apply answers_iff. rewrite Bool.eqb_true_iff. reflexivity.
  - apply answers_iff. apply strict_num.
  - apply answers_iff. apply string_equal_ok.
  - apply answers_iff. apply Nat.eqb_eq.
  - apply answers_iff. apply strict_big.
  - apply answers_iff. apply Nat.eqb_eq.
Qed.

Section Ops.
Variable W : Type.
Variable get : W -> val -> pname -> W * (exc + val).
Variable call : W -> val -> val -> list val -> W * (exc + val).
Variable callable : val -> bool.
Variable proto_of : W -> nat -> W * (exc + option nat).
Variable bound : nat -> option val.
Variable str_num : text -> Z.
Variable str_big : text -> option Z.
Variable num_str : Z -> text.
Variable big_str : Z -> text.
Variable num_add : Z -> Z -> Z.
Variable num_op : nop -> Z -> Z -> Z.
Variable big_op : nop -> Z -> Z -> res Z.

Notation to_primitive := (to_primitive W get call callable).
Notation ToPrimitive := (ToPrimitive W get call callable).
Notation to_numeric := (to_numeric W get call callable str_num).
Notation to_number := (to_number W get call callable str_num).
Notation to_string := (to_string W get call callable num_str big_str).
Notation loosely_equal := (loosely_equal W get call callable str_num str_big).
Notation quantity := (quantity str_num str_big).
Notation loose_prim := (loose_prim str_num str_big).

(** ** ToPrimitive *)
Lemma attempt_ok w v name (k : M W val) k' :
  (forall w', k w' = host W (k' w')) ->
  bind W (m_get W get v name) (fun to_prim =>
    if callable to_prim then
      bind W (m_call W call to_prim v []) (fun prim =>
        if negb (is_obj prim) then ret W prim else k)
    else k) w
  = host W (attempt W get call callable w v name k').
Proof.
  intros K. unfold bind, m_get, m_call, attempt, host, ret.
  destruct (get w v name) as [w1 [e|f]]; [reflexivity|].
  destruct (callable f); [|apply K].
  destruct (call w1 f v []) as [w2 [e|p]]; [reflexivity|].
  destruct p; cbn [is_obj negb]; try reflexivity. apply K.
Qed.
Lemma to_primitive_ok w v h : to_primitive v h w = host W (ToPrimitive w v h).
Proof.
  unfold OpModel.to_primitive, OpSpec.ToPrimitive.
  destruct v as [| | | | | | |n]; try reflexivity. cbn [is_obj].
  unfold object_to_primitive, get_method. unfold bind at 1. unfold bind at 1, m_get.
  destruct (get w (Obj n) PToPrimitive) as [w1 [e|f]]; cbn [host]; [reflexivity|].
  assert (Z0 : ordinary_to_primitive W get call callable (Obj n) h w1 =
    host W (match h with
      | HString => attempt W get call callable w1 (Obj n) PToString
          (fun w2 => attempt W get call callable w2 (Obj n) PValueOf (no_primitive W))
      | _ => attempt W get call callable w1 (Obj n) PValueOf
          (fun w2 => attempt W get call callable w2 (Obj n) PToString (no_primitive W))
      end)).
  { unfold ordinary_to_primitive. destruct h; cbn [try_funcs];
      apply attempt_ok; intros w'; apply attempt_ok; intros w''; reflexivity. }
  destruct f; cbn [ret]; try exact Z0;
    match goal with |- context [callable ?f] => destruct (callable f); [|reflexivity] end;
    cbn [ret]; unfold bind, m_call;
    match goal with |- context [call w1 ?f ?v ?a] => destruct (call w1 f v a) as [w2 [e|p]] end;
    cbn [host]; try reflexivity; destruct p; reflexivity.
Qed.
Lemma prim_prim w v h : is_obj v = false -> ToPrimitive w v h = (w, inr v).
Proof. destruct v; try reflexivity. discriminate. Qed.
Lemma ToPrimitive_prim w v h w' p : ToPrimitive w v h = (w', inr p) -> is_obj p = false.
Proof.
  unfold OpSpec.ToPrimitive.
  assert (A : forall w v name k, (forall w w' p, k w = (w', inr p) -> is_obj p = false) ->
    attempt W get call callable w v name k = (w', inr p) -> is_obj p = false).
  { intros w0 v0 name k K. unfold attempt. destruct (get w0 v0 name) as [w1 [e|f]]; [discriminate|].
    destruct (callable f); [|apply K].
    destruct (call w1 f v0 []) as [w2 [e|q]]; [discriminate|].
    destruct q; try (intros [= <- <-]; reflexivity). apply K. }
  destruct v as [| | | | | | |n]; try (intros [= <- <-]; reflexivity).
  destruct (get w (Obj n) PToPrimitive) as [w1 [e|f]]; [discriminate|].
  assert (B : forall a b w1, attempt W get call callable w1 (Obj n) a
      (fun w2 => attempt W get call callable w2 (Obj n) b (no_primitive W)) = (w', inr p) ->
      is_obj p = false).
  { intros a b w2. apply A. intros w3 w4 p'. unfold attempt.
    destruct (get w3 (Obj n) b) as [w5 [e|g]]; [discriminate|].
    destruct (callable g); [|discriminate].
    destruct (call w5 g (Obj n) []) as [w6 [e|q]]; [discriminate|].
    destruct q; intros [= <- <-]; reflexivity. }
  destruct f; try (destruct h; apply B);
    match goal with |- context [callable ?f] => destruct (callable f); [|discriminate] end;
    match goal with |- context [call w1 ?f ?v ?a] => destruct (call w1 f v a) as [w2 [e|q]] end;
    try discriminate; destruct q; intros [= <- <-]; reflexivity.
Qed.

(** ** [==] *)
Lemma bool_value b : number_value (bool_num b) = Some (integer_value (if b then 1 else 0)).
Proof. destruct b; vm_compute; reflexivity. Qed.

Lemma loose_sym_q x y :
  (exists q, quantity (is_big y) x = Some q /\ quantity (is_big x) y = Some q) <->
  (exists q, quantity (is_big x) y = Some q /\ quantity (is_big y) x = Some q).
Proof. split; intros (q & A & B); exists q; auto. Qed.

Local Opaque number_value integer_value number_compare big_compare_number big_compare.
Lemma loosely_prims fuel x y w : is_obj x = false -> is_obj y = false ->
  exists r, loosely_equal (4 + fuel) x y w = (w, r) /\ answers (loose_prim x y) r.
Proof.
  intros Hx Hy. cbn [Nat.add].
  assert (N : forall a b, answers (exists q, number_value a = Some q /\ number_value b = Some q)
                (Ok (is_equal (number_compare a b)))).
  { intros a b. apply answers_iff. apply strict_num. }
  assert (BN : forall z n, answers (exists q, Some (integer_value z) = Some q /\ number_value n = Some q)
                (Ok (is_equal (big_compare_number z n)))).
  { intros z n. apply answers_iff. rewrite is_equal_true, big_compare_number_ok, opt_equal. reflexivity. }
  assert (NB : forall z n, answers (exists q, number_value n = Some q /\ Some (integer_value z) = Some q)
                (Ok (is_equal (big_compare_number z n)))).
  { intros z n. eapply answers_equiv; [|apply BN]. split; intros (q & A & B); exists q; auto. }
  assert (BB : forall y z, answers (exists q, Some (integer_value y) = Some q /\ Some (integer_value z) = Some q)
                (Ok (is_equal (big_compare y z)))).
  { intros y0 z. apply answers_iff. rewrite is_equal_true, big_compare_ok, ext_equal. split.
    - intros ->. eauto.
    - intros (q & [= ->] & [= ->]). reflexivity. }
  assert (F : forall (P : Prop), ~ P -> exists r, (w, Ok false) = (w, r) /\ answers P r).
  { intros P H. exists (Ok false). split; [reflexivity|]. apply answers_false. exact H. }
  assert (T : forall (P : Prop), P -> exists r, (w, Ok true) = (w, r) /\ answers P r).
  { intros P H. exists (Ok true). split; [reflexivity|]. apply answers_true. exact H. }
  assert (R : forall (P : Prop) b, answers P (Ok b) -> exists r, (w, Ok b) = (w, r) /\ answers P r).
  { intros P b H. exists (Ok b). split; [reflexivity|]. exact H. }
  assert (NL : forall (f : ext -> Prop), ~ (exists q, None = Some q /\ f q)).
  { intros f (q & A & B). discriminate. }
  assert (NR : forall (f : ext -> Prop), ~ (exists q, f q /\ None = Some q)).
  { intros f (q & A & B). discriminate. }
  destruct x, y; try discriminate Hx; try discriminate Hy;
    cbn [OpModel.loosely_equal ty vty_eqb OpSpec.loose_prim quantity is_big OpModel.to_number is_obj
         prim_to_number numeric_or_key andb];
    unfold OpModel.to_number; cbn [is_obj prim_to_number];
    unfold bind, ret, lift, strictly_equal; cbn [ty vty_eqb negb same_value_non_numeric];
    rewrite <- ?bool_value.
  all: try (apply T; exact I); try (apply F; first [apply NL|apply NR]).
  all: try (apply R; first [apply N|apply BN|apply NB|apply BB]).
  - apply R. apply answers_iff. rewrite !bool_value. rewrite Bool.eqb_true_iff. split.
    + intros ->. eauto.
    + intros (q & [= A] & [= B]). rewrite <- B in A. apply integer_inj in A.
      destruct b, b0; congruence.
  - apply R. apply answers_iff. apply string_equal_ok.
  - destruct (str_big s) as [z'|]; cbn [option_map]; [|apply F; apply NL].
    apply R. eapply answers_equiv; [|apply BB]. split; intros (q & A & B); exists q; auto.
  - apply R. apply answers_iff. apply Nat.eqb_eq.
  - destruct (str_big s) as [z'|]; cbn [option_map]; [|apply F; apply NR].
    apply R. apply BB.
Qed.
Lemma loose_bool_l b y : is_obj y = false -> loose_prim (Num (bool_num b)) y <-> loose_prim (Bool b) y.
Proof.
  intros H. destruct y; try discriminate H; cbn [OpSpec.loose_prim OpSpec.quantity is_big];
    rewrite ?bool_value; reflexivity.
Qed.
Lemma loose_bool_r b x : is_obj x = false -> loose_prim x (Num (bool_num b)) <-> loose_prim x (Bool b).
Proof.
  intros H. destruct x; try discriminate H; cbn [OpSpec.loose_prim OpSpec.quantity is_big];
    rewrite ?bool_value; reflexivity.
Qed.

Lemma loosely_obj_r fuel x n w : numeric_or_key x = true ->
  let '(w', p) := ToPrimitive w (Obj n) HDefault in
  match p with
  | inl e => loosely_equal (5 + fuel) x (Obj n) w = (w', Throw e)
  | inr p => exists r, loosely_equal (5 + fuel) x (Obj n) w = (w', r) /\ answers (loose_prim x p) r
  end.
Proof.
  intros H. pose proof (to_primitive_ok w (Obj n) HDefault) as E.
  destruct (ToPrimitive w (Obj n) HDefault) as [w' [e|p]] eqn:P; cbn [host] in E.
  - change (5 + fuel)%nat with (S (4 + fuel))%nat. generalize (4 + fuel)%nat as f. intros f.
    destruct x; try discriminate H; cbn [OpModel.loosely_equal ty vty_eqb numeric_or_key is_obj andb];
      unfold bind; rewrite E; reflexivity.
  - pose proof (ToPrimitive_prim _ _ _ _ _ P) as Hp.
    assert (Hx : is_obj x = false) by (destruct x; try discriminate H; reflexivity).
    destruct (loosely_prims fuel x p w' Hx Hp) as (r & L & A).
    exists r. split; [|exact A]. revert L.
    change (5 + fuel)%nat with (S (4 + fuel))%nat. generalize (4 + fuel)%nat as f. intros f L.
    destruct x; try discriminate H; cbn [OpModel.loosely_equal ty vty_eqb numeric_or_key is_obj andb];
      unfold bind; rewrite E; exact L.
Qed.
Lemma loosely_obj_l fuel y n w : numeric_or_key y = true ->
  let '(w', p) := ToPrimitive w (Obj n) HDefault in
  match p with
  | inl e => loosely_equal (5 + fuel) (Obj n) y w = (w', Throw e)
  | inr p => exists r, loosely_equal (5 + fuel) (Obj n) y w = (w', r) /\ answers (loose_prim p y) r
  end.
Proof.
  intros H. pose proof (to_primitive_ok w (Obj n) HDefault) as E.
  destruct (ToPrimitive w (Obj n) HDefault) as [w' [e|p]] eqn:P; cbn [host] in E.
  - change (5 + fuel)%nat with (S (4 + fuel))%nat. generalize (4 + fuel)%nat as f. intros f.
    destruct y; try discriminate H; cbn [OpModel.loosely_equal ty vty_eqb numeric_or_key is_obj andb];
      unfold bind; rewrite E; reflexivity.
  - pose proof (ToPrimitive_prim _ _ _ _ _ P) as Hp.
    assert (Hy : is_obj y = false) by (destruct y; try discriminate H; reflexivity).
    destruct (loosely_prims fuel p y w' Hp Hy) as (r & L & A).
    exists r. split; [|exact A]. revert L.
    change (5 + fuel)%nat with (S (4 + fuel))%nat. generalize (4 + fuel)%nat as f. intros f L.
    destruct y; try discriminate H; cbn [OpModel.loosely_equal ty vty_eqb numeric_or_key is_obj andb];
      unfold bind; rewrite E; exact L.
Qed.
Lemma le_same f v1 v2 w : vty_eqb (ty v1) (ty v2) = true ->
  loosely_equal (S f) v1 v2 w = (w, strictly_equal v1 v2).
Proof. intros H. cbn [OpModel.loosely_equal]. rewrite H. reflexivity. Qed.
Lemma le_null_r f a y w : nullish y = true -> loosely_equal (S f) (Obj a) y w = (w, Ok false).
Proof. destruct y; try discriminate; intros _; reflexivity. Qed.
Lemma le_null_l f x b w : nullish x = true -> loosely_equal (S f) x (Obj b) w = (w, Ok false).
Proof. destruct x; try discriminate; intros _; reflexivity. Qed.
Lemma le_bool_r f a b w :
  loosely_equal (S f) (Obj a) (Bool b) w = loosely_equal f (Obj a) (Num (bool_num b)) w.
Proof. reflexivity. Qed.
Lemma le_bool_l f a b w :
  loosely_equal (S f) (Bool b) (Obj a) w = loosely_equal f (Num (bool_num b)) (Obj a) w.
Proof. reflexivity. Qed.
Lemma bc_eq_ok w v1 v2 :
  let '(w', r) := bc_eq W get call callable str_num str_big v1 v2 w in
  loose_outcome W get call callable str_num str_big w v1 v2 w' r.
Proof.
  unfold bc_eq, eq_depth. destruct (is_obj v1) eqn:O1, (is_obj v2) eqn:O2.
  - destruct v1 as [| | | | | | |a]; try discriminate O1. destruct v2 as [| | | | | | |b]; try discriminate O2.
    rewrite le_same by reflexivity.
    apply lo_objs. apply (strictly_equal_ok (Obj a) (Obj b)).
  - destruct v1 as [| | | | | | |a]; try discriminate O1.
    destruct (nullish v2) eqn:NL.
    { rewrite le_null_r by exact NL. apply lo_null_l. exact NL. }
    destruct v2 as [| |b|z|s|m|z|m]; try discriminate O2; try discriminate NL.
    + pose proof (loosely_obj_l 0 (Num (bool_num b)) a w eq_refl) as L.
      rewrite le_bool_r.
      destruct (ToPrimitive w (Obj a) HDefault) as [w' [e|p]] eqn:P.
      * cbn [Nat.add] in L. rewrite L. apply lo_obj_l_throw; auto.
      * destruct L as (r & L & A). cbn [Nat.add] in L. rewrite L.
        apply lo_obj_l with p; auto. eapply answers_equiv; [|exact A].
        apply loose_bool_r. eapply ToPrimitive_prim. exact P.
    + pose proof (loosely_obj_l 1 (Num z) a w eq_refl) as L. cbn [Nat.add] in L.
      destruct (ToPrimitive w (Obj a) HDefault) as [w' [e|p]] eqn:P.
      * rewrite L. apply lo_obj_l_throw; auto.
      * destruct L as (r & L & A). rewrite L. apply lo_obj_l with p; auto.
    + pose proof (loosely_obj_l 1 (Str s) a w eq_refl) as L. cbn [Nat.add] in L.
      destruct (ToPrimitive w (Obj a) HDefault) as [w' [e|p]] eqn:P.
      * rewrite L. apply lo_obj_l_throw; auto.
      * destruct L as (r & L & A). rewrite L. apply lo_obj_l with p; auto.
    + pose proof (loosely_obj_l 1 (Sym m) a w eq_refl) as L. cbn [Nat.add] in L.
      destruct (ToPrimitive w (Obj a) HDefault) as [w' [e|p]] eqn:P.
      * rewrite L. apply lo_obj_l_throw; auto.
      * destruct L as (r & L & A). rewrite L. apply lo_obj_l with p; auto.
    + pose proof (loosely_obj_l 1 (Big z) a w eq_refl) as L. cbn [Nat.add] in L.
      destruct (ToPrimitive w (Obj a) HDefault) as [w' [e|p]] eqn:P.
      * rewrite L. apply lo_obj_l_throw; auto.
      * destruct L as (r & L & A). rewrite L. apply lo_obj_l with p; auto.
  - destruct v2 as [| | | | | | |a]; try discriminate O2.
    destruct (nullish v1) eqn:NL.
    { rewrite le_null_l by exact NL. apply lo_null_r. exact NL. }
    destruct v1 as [| |b|z|s|m|z|m]; try discriminate O1; try discriminate NL.
    + pose proof (loosely_obj_r 0 (Num (bool_num b)) a w eq_refl) as L.
      rewrite le_bool_l.
      destruct (ToPrimitive w (Obj a) HDefault) as [w' [e|p]] eqn:P.
      * cbn [Nat.add] in L. rewrite L. apply lo_obj_r_throw; auto.
      * destruct L as (r & L & A). cbn [Nat.add] in L. rewrite L.
        apply lo_obj_r with p; auto. eapply answers_equiv; [|exact A].
        apply loose_bool_l. eapply ToPrimitive_prim. exact P.
    + pose proof (loosely_obj_r 1 (Num z) a w eq_refl) as L. cbn [Nat.add] in L.
      destruct (ToPrimitive w (Obj a) HDefault) as [w' [e|p]] eqn:P.
      * rewrite L. apply lo_obj_r_throw; auto.
      * destruct L as (r & L & A). rewrite L. apply lo_obj_r with p; auto.
    + pose proof (loosely_obj_r 1 (Str s) a w eq_refl) as L. cbn [Nat.add] in L.
      destruct (ToPrimitive w (Obj a) HDefault) as [w' [e|p]] eqn:P.
      * rewrite L. apply lo_obj_r_throw; auto.
      * destruct L as (r & L & A). rewrite L. apply lo_obj_r with p; auto.
    + pose proof (loosely_obj_r 1 (Sym m) a w eq_refl) as L. cbn [Nat.add] in L.
      destruct (ToPrimitive w (Obj a) HDefault) as [w' [e|p]] eqn:P.
      * rewrite L. apply lo_obj_r_throw; auto.
      * destruct L as (r & L & A). rewrite L. apply lo_obj_r with p; auto.
    + pose proof (loosely_obj_r 1 (Big z) a w eq_refl) as L. cbn [Nat.add] in L.
      destruct (ToPrimitive w (Obj a) HDefault) as [w' [e|p]] eqn:P.
      * rewrite L. apply lo_obj_r_throw; auto.
      * destruct L as (r & L & A). rewrite L. apply lo_obj_r with p; auto.
  - destruct (loosely_prims 2 v1 v2 w O1 O2) as (r & L & A). cbn [Nat.add] in L. rewrite L.
    apply lo_prims; auto.
Qed.
Lemma bc_ne_ok w v1 v2 :
  bc_ne W get call callable str_num str_big v1 v2 w =
  let '(w', r) := bc_eq W get call callable str_num str_big v1 v2 w in
  (w', match r with Ok b => Ok (negb b) | Throw e => Throw e | Crash => Crash | Fuel => Fuel end).
Proof.
  unfold bc_ne, bc_eq, bind, ret.
  destruct (OpModel.loosely_equal W get call callable str_num str_big eq_depth v1 v2 w) as [w' [b|e| |]];
    reflexivity.
Qed.

(** ** Relational operators *)
Definition rel_answer (op : relop) (c : cmp) : bool :=
  match op, c with
  | RLt, LESS | RLe, LESS | RLe, EQUAL | RGt, GREATER | RGe, GREATER | RGe, EQUAL => true
  | _, _ => false
  end.
Notation bc_rel := (bc_rel W get call callable str_num str_big).
Lemma bc_rel_eq op v1 v2 w :
  bc_rel op v1 v2 w =
  bind W (do_bc_compare W get call callable str_num str_big v1 v2)
    (fun c => ret W (rel_answer op c)) w.
Proof. destruct op; reflexivity. Qed.
Lemma rel_ext op p q :
  rel_answer op (ext_cmp p q) = true <-> rel_holds ext_lt op p q.
Proof.
  pose proof (ext_less p q). pose proof (ext_greater p q). pose proof (ext_equal p q).
  pose proof (ext_defined p q).
  destruct op, (ext_cmp p q); cbn [rel_answer rel_holds]; intuition congruence.
Qed.
Lemma rel_opt op p q :
  answers (exists x y, p = Some x /\ q = Some y /\ rel_holds ext_lt op x y)
          (Ok (rel_answer op (opt_cmp p q))).
Proof.
  apply answers_iff. destruct p as [x|], q as [y|]; cbn [opt_cmp].
  - rewrite rel_ext. split.
    + intros H. eauto.
    + intros (a & b & [= ->] & [= ->] & H). exact H.
  - destruct op; (split; [discriminate|intros (a & b & A & B & C); discriminate]).
  - destruct op; (split; [discriminate|intros (a & b & A & B & C); discriminate]).
  - destruct op; (split; [discriminate|intros (a & b & A & B & C); discriminate]).
Qed.
Lemma rel_text op a b :
  answers (rel_holds text_lt op a b) (Ok (rel_answer op (string_compare a b))).
Proof.
  apply answers_iff. destruct (string_compare_ok a b) as (A & B & C & D).
  destruct op, (string_compare a b); cbn [rel_answer rel_holds]; intuition congruence.
Qed.

(** ** Conversions of primitive values *)
Lemma to_numeric_prim v w : is_obj v = false ->
  to_numeric v w = host W (w, numeric str_num v).
Proof.
  intros H. unfold OpModel.to_numeric, OpModel.to_number, OpModel.to_primitive, bind, ret, throw. rewrite H.
  destruct v; try discriminate H; reflexivity.
Qed.
Lemma to_numeric_ok v w :
  to_numeric v w = host W (ToNumeric W get call callable str_num w v).
Proof.
  unfold OpModel.to_numeric, ToNumeric, bind. rewrite to_primitive_ok.
  destruct (ToPrimitive w v HNumber) as [w' [e|p]] eqn:P; cbn [host]; [reflexivity|].
  pose proof (ToPrimitive_prim _ _ _ _ _ P) as Hp.
  destruct p; try discriminate Hp; reflexivity.
Qed.
Lemma to_string_prim_ok v w : is_obj v = false ->
  to_string v w = host W (w, display num_str big_str v).
Proof.
  intros H. unfold OpModel.to_string, ret, throw. rewrite H.
  destruct v as [| |[]| | | | |]; try discriminate H; reflexivity.
Qed.

(** the comparison of two primitive values, as [do_bc_compare] does it *)
Lemma nan_none : number_value nan = None.
Proof. vm_compute. reflexivity. Qed.
Lemma zero_value : number_value 0 = Some (integer_value 0).
Proof. vm_compute. reflexivity. Qed.
Definition num_of (v : val) : val := match numeric str_num v with inr x => x | inl _ => Undef end.
Definition numeric_compare (x y : val) : cmp :=
  match x, y with
  | Big a, Big b => big_compare a b
  | Num a, Num b => number_compare a b
  | Num a, Big b => swap (big_compare_number b a)
  | Big a, Num b => big_compare_number a b
  | _, _ => UNDEFINED
  end.
Definition value_of (x : val) : option ext :=
  match x with Num a => number_value a | Big z => Some (integer_value z) | _ => None end.
Lemma opt_cmp_swap p q : swap (opt_cmp p q) = opt_cmp q p.
Proof. destruct p, q; try reflexivity. apply ext_cmp_swap. Qed.
Lemma numeric_compare_ok x y :
  match x with Num _ | Big _ => True | _ => False end ->
  match y with Num _ | Big _ => True | _ => False end ->
  numeric_compare x y = opt_cmp (value_of x) (value_of y).
Proof.
  destruct x; try contradiction; destruct y; try contradiction; intros _ _; cbn [numeric_compare value_of].
  - apply number_compare_ok.
  - rewrite big_compare_number_ok. apply opt_cmp_swap.
  - apply big_compare_number_ok.
  - rewrite big_compare_ok. reflexivity.
Qed.
Definition prim_compare (p q : val) : cmp :=
  match p, q with
  | Str a, Str b => string_compare a b
  | Str a, Big z => match str_big a with None => UNDEFINED | Some n => big_compare n z end
  | Big z, Str b => match str_big b with None => UNDEFINED | Some n => big_compare z n end
  | _, _ => numeric_compare (num_of p) (num_of q)
  end.
Notation rel_quantity := (rel_quantity str_num str_big).
Notation rel_prim := (rel_prim str_num str_big).
Lemma num_of_quantity b v : is_obj v = false -> is_sym v = false ->
  match v with Str _ => b = false | _ => True end ->
  value_of (num_of v) = rel_quantity b v.
Proof.
  intros H1 H2 H3. destruct v; try discriminate; cbn [num_of numeric value_of OpSpec.rel_quantity OpSpec.quantity].
  - apply nan_none.
  - apply zero_value.
  - apply bool_value.
  - reflexivity.
  - subst b. reflexivity.
  - reflexivity.
Qed.
Lemma num_of_shape v : is_obj v = false -> is_sym v = false ->
  match num_of v with Num _ | Big _ => True | _ => False end.
Proof. destruct v; try discriminate; intros _ _; exact I. Qed.
Lemma prim_compare_ok op p q : is_obj p = false -> is_obj q = false -> is_sym p || is_sym q = false ->
  answers (rel_prim op p q) (Ok (rel_answer op (prim_compare p q))).
Proof.
  intros Hp Hq Hs. apply orb_false_iff in Hs. destruct Hs as [Sp Sq].
  assert (G : match p with Str _ => is_big q = false | _ => True end ->
              match q with Str _ => is_big p = false | _ => True end ->
              answers (exists x y, rel_quantity (is_big q) p = Some x /\ rel_quantity (is_big p) q = Some y /\
                       rel_holds ext_lt op x y)
                      (Ok (rel_answer op (numeric_compare (num_of p) (num_of q))))).
  { intros A B. rewrite numeric_compare_ok by (apply num_of_shape; assumption).
    rewrite (num_of_quantity (is_big q) p), (num_of_quantity (is_big p) q) by assumption.
    apply rel_opt. }
  assert (BB : forall a b, answers (exists x y, Some (integer_value a) = Some x /\ Some (integer_value b) = Some y /\
                       rel_holds ext_lt op x y) (Ok (rel_answer op (big_compare a b)))).
  { intros a b. rewrite big_compare_ok. apply (rel_opt op (Some (integer_value a)) (Some (integer_value b))). }
  destruct p as [| | | |s| |z|]; try discriminate Hp; try discriminate Sp;
  destruct q as [| | | |t| |y|]; try discriminate Hq; try discriminate Sq;
    cbn [prim_compare OpSpec.rel_prim];
    try (apply G; first [exact I|reflexivity]).
  - apply rel_text.
  - cbn [is_big OpSpec.rel_quantity OpSpec.quantity]. destruct (str_big s); cbn [option_map]; [apply BB|].
    apply (rel_opt op None (Some (integer_value y))).
  - cbn [is_big OpSpec.rel_quantity OpSpec.quantity]. destruct (str_big t); cbn [option_map]; [apply BB|].
    apply (rel_opt op (Some (integer_value z)) None).
Qed.
Lemma numeric_throws v : is_obj v = false ->
  match numeric str_num v with
  | inl e => e = EType /\ is_sym v = true
  | inr x => x = num_of v /\ is_sym v = false
  end.
Proof. destruct v; try discriminate; intros _; cbn; auto. Qed.
Lemma compare_prims p q w : is_obj p = false -> is_obj q = false ->
  (match p, q with
   | Str a, Str b => ret W (string_compare a b)
   | Str a, Big z =>
     match str_big a with None => ret W UNDEFINED | Some n1 => ret W (big_compare n1 z) end
   | Big z, Str b =>
     match str_big b with None => ret W UNDEFINED | Some n2 => ret W (big_compare z n2) end
   | _, _ =>
     bind W (to_numeric p) (fun n1 => bind W (to_numeric q) (fun n2 =>
       match n1, n2 with
       | Big a, Big b => ret W (big_compare a b)
       | Num a, Num b => ret W (number_compare a b)
       | Num a, Big b => ret W (swap (big_compare_number b a))
       | Big a, Num b => ret W (big_compare_number a b)
       | _, _ => crash W
       end))
   end) w =
  if is_sym p || is_sym q then (w, Throw EType) else (w, Ok (prim_compare p q)).
Proof.
  intros Hp Hq.
  assert (G : bind W (to_numeric p) (fun n1 => bind W (to_numeric q) (fun n2 =>
       match n1, n2 with
       | Big a, Big b => ret W (big_compare a b)
       | Num a, Num b => ret W (number_compare a b)
       | Num a, Big b => ret W (swap (big_compare_number b a))
       | Big a, Num b => ret W (big_compare_number a b)
       | _, _ => crash W
       end)) w =
    if is_sym p || is_sym q then (w, Throw EType)
    else (w, Ok (numeric_compare (num_of p) (num_of q)))).
  { unfold bind. rewrite to_numeric_prim by exact Hp. pose proof (numeric_throws p Hp) as A.
    destruct (numeric str_num p) as [e|x] eqn:Ep; destruct A as [-> Sp]; rewrite Sp; cbn [host orb]; [reflexivity|].
    rewrite to_numeric_prim by exact Hq. pose proof (numeric_throws q Hq) as A.
    destruct (numeric str_num q) as [e|y] eqn:Eq; destruct A as [-> Sq]; rewrite Sq; cbn [host]; [reflexivity|].
    pose proof (num_of_shape p Hp Sp). pose proof (num_of_shape q Hq Sq).
    destruct (num_of p); try contradiction; destruct (num_of q); try contradiction; reflexivity. }
  destruct p as [| | | |s| |z|]; try discriminate Hp; destruct q as [| | | |t| |y|]; try discriminate Hq;
    cbn [prim_compare]; try exact G; try reflexivity.
  - cbn [is_sym orb]. destruct (str_big s); reflexivity.
  - cbn [is_sym orb]. destruct (str_big t); reflexivity.
Qed.
Lemma bc_rel_ok op w v1 v2 :
  let '(w', r) := bc_rel op v1 v2 w in
  rel_outcome W get call callable str_num str_big HDefault op w v1 v2 w' r.
Proof.
  rewrite bc_rel_eq. unfold do_bc_compare, bind at 1. unfold bind at 1. rewrite to_primitive_ok.
  destruct (ToPrimitive w v1 HDefault) as [w1 [e|p]] eqn:P1; cbn [host].
  { apply ro_left. exact P1. }
  unfold bind at 1. rewrite to_primitive_ok.
  destruct (ToPrimitive w1 v2 HDefault) as [w2 [e|q]] eqn:P2; cbn [host].
  { eapply ro_right; eassumption. }
  pose proof (ToPrimitive_prim _ _ _ _ _ P1) as Hp. pose proof (ToPrimitive_prim _ _ _ _ _ P2) as Hq.
  rewrite (compare_prims p q w2 Hp Hq).
  destruct (is_sym p || is_sym q) eqn:S.
  - eapply ro_symbol; eassumption.
  - unfold ret. eapply ro_answer; try eassumption. apply prim_compare_ok; assumption.
Qed.
Notation plain := (plain W get).
Lemma plain_hint w v : plain w v -> ToPrimitive w v HDefault = ToPrimitive w v HNumber.
Proof.
  unfold OpSpec.plain, OpSpec.ToPrimitive. destruct v; try reflexivity.
  destruct (get w (Obj n) PToPrimitive) as [w1 [e|f]]; [reflexivity|].
  destruct f; try discriminate; reflexivity.
Qed.
Lemma rel_outcome_hint op w v1 v2 w' r :
  ToPrimitive w v1 HDefault = ToPrimitive w v1 HNumber ->
  (forall w1 p, ToPrimitive w v1 HNumber = (w1, inr p) ->
     ToPrimitive w1 v2 HDefault = ToPrimitive w1 v2 HNumber) ->
  rel_outcome W get call callable str_num str_big HDefault op w v1 v2 w' r ->
  rel_outcome W get call callable str_num str_big HNumber op w v1 v2 w' r.
Proof.
  intros E1 E2 H. destruct H as [w1 e H|w1 p w2 e H1 H2|w1 p w2 q H1 H2 S|w1 p w2 q r H1 H2 S A];
    rewrite E1 in *.
  - apply ro_left. assumption.
  - rewrite (E2 _ _ H1) in H2. eapply ro_right; eassumption.
  - rewrite (E2 _ _ H1) in H2. eapply ro_symbol; eassumption.
  - rewrite (E2 _ _ H1) in H2. eapply ro_answer; eassumption.
Qed.

(** ** Arithmetic *)
Lemma arith_ok f g x y w :
  match x with Num _ | Big _ => True | _ => False end ->
  match y with Num _ | Big _ => True | _ => False end ->
  (if negb (vty_eqb (ty x) (ty y)) then throw W EType else
   match x, y with
   | Big a, Big b => bind W (lift W (f a b)) (fun z => ret W (Big z))
   | Num a, Num b => ret W (Num (g a b))
   | _, _ => crash W
   end) w = (w, arith f g x y).
Proof.
  destruct x; try contradiction; destruct y; try contradiction; intros _ _; try reflexivity.
  cbn [ty vty_eqb negb arith]. unfold bind, lift, ret. destruct (f z z0); reflexivity.
Qed.
Lemma do_bc_add_ok w v1 v2 :
  do_bc_add W get call callable str_num num_str big_str num_add v1 v2 w =
  Add W get call callable str_num num_str big_str num_add w v1 v2.
Proof.
  unfold do_bc_add, Add. unfold bind at 1. rewrite to_primitive_ok.
  destruct (ToPrimitive w v1 HDefault) as [w1 [e|p]] eqn:P1; cbn [host]; [reflexivity|].
  unfold bind at 1. rewrite to_primitive_ok.
  destruct (ToPrimitive w1 v2 HDefault) as [w2 [e|q]] eqn:P2; cbn [host]; [reflexivity|].
  pose proof (ToPrimitive_prim _ _ _ _ _ P1) as Hp. pose proof (ToPrimitive_prim _ _ _ _ _ P2) as Hq.
  clear P1 P2.
  assert (S : forall A B : W * res val,
    (if is_str p || is_str q then A else B) =
    match p, q with Str _, _ | _, Str _ => A | _, _ => B end).
  { intros A B. destruct p, q; reflexivity. }
  assert (E1 : bind W (to_string p) (fun ls => bind W (to_string q) (fun rs => ret W (Str (ls ++ rs)))) w2 =
    (w2, match display num_str big_str p, display num_str big_str q with
         | inr s, inr t => Ok (Str (s ++ t)) | _, _ => Throw EType end)).
  { unfold bind. rewrite (to_string_prim_ok p) by exact Hp.
    assert (D : forall v e, display num_str big_str v = inl e -> e = EType).
    { intros v e. destruct v; cbn [display]; congruence. }
    destruct (display num_str big_str p) as [e|s] eqn:Dp; cbn [host].
    { apply D in Dp. subst e. reflexivity. }
    rewrite (to_string_prim_ok q) by exact Hq.
    destruct (display num_str big_str q) as [e|t] eqn:Dq; cbn [host]; [|reflexivity].
    apply D in Dq. subst e. reflexivity. }
  assert (E2 : bind W (to_numeric p) (fun ln => bind W (to_numeric q) (fun rn =>
      if negb (vty_eqb (ty ln) (ty rn)) then throw W EType else
      match ln, rn with
      | Big a, Big b => ret W (Big (a + b))
      | Num a, Num b => ret W (Num (num_add a b))
      | _, _ => crash W
      end)) w2 =
    (w2, match numeric str_num p, numeric str_num q with
         | inr x, inr y => arith (fun a b => Ok (a + b)) num_add x y | _, _ => Throw EType end)).
  { unfold bind. rewrite to_numeric_prim by exact Hp. pose proof (numeric_throws p Hp) as A.
    destruct (numeric str_num p) as [e|x] eqn:Ep; destruct A as [-> Sp]; cbn [host]; [reflexivity|].
    rewrite to_numeric_prim by exact Hq. pose proof (numeric_throws q Hq) as A.
    destruct (numeric str_num q) as [e|y] eqn:Eq; destruct A as [-> Sq]; cbn [host]; [reflexivity|].
    pose proof (num_of_shape p Hp Sp). pose proof (num_of_shape q Hq Sq).
    destruct (num_of p); try contradiction; destruct (num_of q); try contradiction; reflexivity. }
  destruct p as [| | | |s| |z|]; try discriminate Hp; destruct q as [| | | |t| |y|]; try discriminate Hq;
    cbn [is_str orb]; first [exact E1|exact E2].
Qed.
Lemma numeric_ToNumeric w v w' x :
  ToNumeric W get call callable str_num w v = (w', inr x) ->
  match x with Num _ | Big _ => True | _ => False end.
Proof.
  unfold ToNumeric. destruct (ToPrimitive w v HNumber) as [w1 [e|p]]; [discriminate|].
  intros [= <- H]. destruct p; cbn in H; try discriminate; injection H as <-; exact I.
Qed.
Lemma do_bc_numeric_ok o w v1 v2 :
  do_bc_numeric W get call callable str_num num_op big_op o v1 v2 w =
  Arithmetic W get call callable str_num num_op big_op o w v1 v2.
Proof.
  unfold do_bc_numeric, Arithmetic. unfold bind at 1. rewrite to_numeric_ok.
  destruct (ToNumeric W get call callable str_num w v1) as [w1 [e|x]] eqn:P1; cbn [host]; [reflexivity|].
  unfold bind at 1. rewrite to_numeric_ok.
  destruct (ToNumeric W get call callable str_num w1 v2) as [w2 [e|y]] eqn:P2; cbn [host]; [reflexivity|].
  apply arith_ok; eapply numeric_ToNumeric; eassumption.
Qed.

(** ** [instanceof] *)
Notation proto_walk := (proto_walk W proto_of).
Notation chain := (chain W proto_of).
Notation ordinary_has_instance := (ordinary_has_instance W get call callable proto_of bound).
Notation instance_of := (instance_of W get call callable proto_of bound).
Notation has_instance := (has_instance W get call callable proto_of bound).
Notation instanceof := (instanceof W get call callable proto_of bound).
Definition answer (r : res (bool * val)) : res bool :=
  match r with Ok p => Ok (fst p) | Throw e => Throw e | Crash => Crash | Fuel => Fuel end.

Lemma proto_walk_sound fuel P o w w' r :
  proto_walk fuel (Obj P) (Obj o) w = (w', r) -> r <> Fuel -> chain P w o w' (answer r).
Proof.
  revert o w. induction fuel as [|fuel IH]; intros o w; cbn [OpModel.proto_walk].
  { intros [= <- <-] H. congruence. }
  unfold bind, m_proto. destruct (proto_of w o) as [w1 [e|[q|]]] eqn:E; cbn [host].
  - intros [= <- <-] _. apply ch_throw. exact E.
  - destruct (Nat.eqb_spec q P) as [->|N].
    + unfold ret. intros [= <- <-] _. apply ch_found. exact E.
    + intros H R. eapply ch_next; [exact E|exact N|]. apply IH; assumption.
  - unfold ret. intros [= <- <-] _. apply ch_end. exact E.
Qed.
Lemma proto_walk_complete P w o w' r : chain P w o w' r ->
  exists n r', forall fuel, (n <= fuel)%nat -> proto_walk fuel (Obj P) (Obj o) w = (w', r') /\ answer r' = r.
Proof.
  induction 1 as [w o w' e E|w o w' E|w o w' E|w o w1 q w' r E N C (n & r' & IH)].
  - exists 1%nat, (Throw e). intros [|fuel] L; [lia|]. cbn [OpModel.proto_walk]. unfold bind, m_proto. rewrite E.
    split; reflexivity.
  - exists 1%nat, (Ok (false, Obj o)). intros [|fuel] L; [lia|]. cbn [OpModel.proto_walk]. unfold bind, m_proto. rewrite E.
    split; reflexivity.
  - exists 1%nat, (Ok (true, Obj o)). intros [|fuel] L; [lia|]. cbn [OpModel.proto_walk]. unfold bind, m_proto. rewrite E.
    cbn [host]. rewrite Nat.eqb_refl. split; reflexivity.
  - exists (S n), r'. intros [|fuel] L; [lia|]. cbn [OpModel.proto_walk]. unfold bind, m_proto. rewrite E. cbn [host].
    destruct (Nat.eqb_spec q P); [contradiction|]. apply IH. lia.
Qed.

Lemma to_boolean_ok v : answers (truthy v) (Ok (to_boolean v)).
Proof.
  apply answers_iff. destruct v; cbn [to_boolean truthy]; try (split; [discriminate|contradiction]);
    try (split; trivial; reflexivity).
  - unfold c_eq. change (dval 0) with 0.
    Transparent number_value. unfold number_value. Opaque number_value.
    destruct (is_nan bits) eqn:N; cbn [orb negb].
    { split; [discriminate|intros (q & A & B); discriminate]. }
    destruct (is_inf bits) eqn:I.
    { pose proof (dmag_inf bits I) as D. pose proof top_pos.
      assert (dval bits <> 0) by (unfold dval; rewrite D; destruct (dsign bits); lia).
      destruct (Z.eqb_spec (dval bits) 0); [contradiction|]. cbn. split; [|reflexivity].
      intros _. eexists. split; [reflexivity|]. destruct (dsign bits); discriminate. }
    destruct (Z.eqb_spec (dval bits) 0) as [->|Z0]; cbn.
    + split; [discriminate|]. intros (q & [= <-] & B). contradiction.
    + split; [|reflexivity]. intros _. eexists. split; [reflexivity|]. intros [= E]. contradiction.
  - destruct s; split; congruence.
  - destruct (Z.eqb_spec z 0); cbn; split; congruence.
Qed.
Lemma instance_eq fuel v t w :
  instance_of (S fuel) v t w =
  (if negb (is_obj t) then throw W EType else
   bind W (get_method W get callable t PHasInstance) (fun fn =>
     match fn with
     | Undef => if negb (callable t) then throw W EType else ordinary_has_instance fuel t v
     | _ => bind W (m_call W call fn t [v]) (fun rv => ret W (to_boolean rv, v))
     end)) w.
Proof. reflexivity. Qed.
Lemma has_instance_eq fuel c o w :
  ordinary_has_instance (S fuel) c o w =
  (match c with
   | Obj n =>
     match bound n with
     | Some target => instance_of fuel o target
     | None =>
       if negb (is_obj o) then ret W (false, o) else
       bind W (m_get W get c PPrototype) (fun proto =>
       if negb (is_obj proto) then throw W EType else proto_walk fuel proto o)
     end
   | _ => if negb (is_obj o) then ret W (false, o) else crash W
   end) w.
Proof. reflexivity. Qed.

(** only objects can be called *)
Hypothesis callable_obj : forall v, callable v = true -> is_obj v = true.

Lemma instance_sound fuel :
  (forall c o w w' r, callable c = true -> ordinary_has_instance fuel c o w = (w', r) -> r <> Fuel ->
     has_instance w c o w' (answer r)) /\
  (forall v t w w' r, instance_of fuel v t w = (w', r) -> r <> Fuel -> instanceof w v t w' (answer r)).
Proof.
  induction fuel as [|fuel [IH1 IH2]].
  { split; intros; cbn in *; congruence. }
  split.
  - intros c o w w' r C. rewrite has_instance_eq. pose proof (callable_obj c C) as Oc.
    destruct c as [| | | | | | |n]; try discriminate Oc.
    destruct (bound n) as [t|] eqn:B.
    { intros H R. apply hi_bound with t; [exact C|exact B|]. apply IH2; assumption. }
    destruct (is_obj o) eqn:O; cbn [negb].
    2: { unfold ret. intros [= <- <-] _. apply hi_prim; assumption. }
    unfold bind, m_get. destruct (get w (Obj n) PPrototype) as [w1 [e|p]] eqn:G; cbn [host].
    { intros [= <- <-] _. apply hi_get_throw; assumption. }
    destruct (is_obj p) eqn:Op; cbn [negb].
    2: { unfold throw. intros [= <- <-] _. eapply hi_proto; eassumption. }
    destruct p as [| | | | | | |p]; try discriminate Op. destruct o as [| | | | | | |o]; try discriminate O.
    intros H R. apply hi_chain with w1 p; [exact C|exact B|exact G|].
    eapply proto_walk_sound; eassumption.
  - intros v t w w' r. rewrite instance_eq. destruct (is_obj t) eqn:O; cbn [negb].
    2: { unfold throw. intros [= <- <-] _. apply io_not_object. exact O. }
    unfold bind at 1. unfold get_method, bind at 1, m_get.
    destruct (get w t PHasInstance) as [w1 [e|f]] eqn:G; cbn [host].
    { intros [= <- <-] _. apply io_get_throw; assumption. }
    assert (K : nullish f = true -> forall w' r,
      (if negb (callable t) then throw W EType else ordinary_has_instance fuel t v) w1 = (w', r) ->
      r <> Fuel -> instanceof w v t w' (answer r)).
    { intros NF w0 r0. destruct (callable t) eqn:C; cbn [negb].
      - intros H R. eapply io_ordinary; try eassumption. apply IH1; assumption.
      - unfold throw. intros [= <- <-] _. eapply io_not_callable; eassumption. }
    assert (J : nullish f = false -> forall w' r,
      match (if callable f then ret W f else throw W EType) w1 with
      | (w'', Ok fn) =>
        match fn with
        | Undef => if negb (callable t) then throw W EType else ordinary_has_instance fuel t v
        | _ => bind W (m_call W call fn t [v]) (fun rv => ret W (to_boolean rv, v))
        end w''
      | (w'', Throw e) => (w'', Throw e)
      | (w'', Crash) => (w'', Crash)
      | (w'', Fuel) => (w'', Fuel)
      end = (w', r) -> r <> Fuel -> instanceof w v t w' (answer r)).
    { intros NF w0 r0. destruct (callable f) eqn:C; unfold ret, throw.
      2: { intros [= <- <-] _. eapply io_bad_method; eassumption. }
      pose proof (callable_obj f C) as Of. destruct f as [| | | | | | |f]; try discriminate Of.
      unfold bind, m_call. destruct (call w1 (Obj f) t [v]) as [w2 [e|x]] eqn:L; cbn [host].
      - intros [= <- <-] _. eapply io_method_throw; eassumption.
      - intros [= <- <-] _. eapply io_method; try eassumption. apply to_boolean_ok. }
    destruct f; first [exact (K eq_refl w' r)|exact (J eq_refl w' r)].
Qed.

Scheme has_instance_mut := Induction for OpSpec.has_instance Sort Prop
with instanceof_mut := Induction for OpSpec.instanceof Sort Prop.

Lemma instance_complete w v t w' b : instanceof w v t w' b ->
  exists n r, forall fuel, (n <= fuel)%nat -> instance_of fuel v t w = (w', r) /\ answer r = b.
Proof.
  intros H.
  apply (instanceof_mut W get call callable proto_of bound
    (fun w c o w' b _ => callable c = true -> exists n r, forall fuel, (n <= fuel)%nat ->
        ordinary_has_instance fuel c o w = (w', r) /\ answer r = b)
    (fun w v t w' b _ => exists n r, forall fuel, (n <= fuel)%nat ->
        instance_of fuel v t w = (w', r) /\ answer r = b)); try exact H; clear H; clear w v t w' b.
  - intros w c o C C'. congruence.
  - intros w n o t w' r C B I (k & r' & IH) _. exists (S k), r'.
    intros [|fuel] L; [lia|]. rewrite has_instance_eq, B. apply IH. lia.
  - intros w n o C B O _. exists 1%nat, (Ok (false, o)).
    intros [|fuel] L; [lia|]. rewrite has_instance_eq, B, O. split; reflexivity.
  - intros w n o w' e C B O G _. exists 1%nat, (Throw e).
    intros [|fuel] L; [lia|]. rewrite has_instance_eq, B, O. unfold bind, m_get. cbn [negb]. rewrite G. split; reflexivity.
  - intros w n o w' p C B O G Op _. exists 1%nat, (Throw EType).
    intros [|fuel] L; [lia|]. rewrite has_instance_eq, B, O. unfold bind, m_get. cbn [negb]. rewrite G.
    cbn [host]. rewrite Op. split; reflexivity.
  - intros w n o w1 p w' r C B G Ch _. destruct (proto_walk_complete p w1 o w' r Ch) as (k & r' & IH).
    exists (S k), r'. intros [|fuel] L; [lia|]. rewrite has_instance_eq, B. unfold bind, m_get. cbn [negb is_obj].
    rewrite G. cbn [host is_obj negb]. apply IH. lia.
  - intros w v t O. exists 1%nat, (Throw EType).
    intros [|fuel] L; [lia|]. rewrite instance_eq, O. split; reflexivity.
  - intros w v t w' e O G. exists 1%nat, (Throw e).
    intros [|fuel] L; [lia|]. rewrite instance_eq, O. unfold bind, get_method, bind, m_get. cbn [negb]. rewrite G.
    split; reflexivity.
  - intros w v t w' f O G N C. exists 1%nat, (Throw EType).
    intros [|fuel] L; [lia|]. rewrite instance_eq, O. unfold bind, get_method, bind, m_get. cbn [negb]. rewrite G.
    cbn [host]. destruct f; try discriminate N; rewrite C; split; reflexivity.
  - intros w v t w1 f w' r O G N C L b A. exists 1%nat, (Ok (to_boolean r, v)).
    intros [|fuel] Lf; [lia|]. rewrite instance_eq, O. unfold bind, get_method, bind, m_get. cbn [negb]. rewrite G.
    cbn [host]. pose proof (callable_obj f C) as Of. destruct f as [| | | | | | |f]; try discriminate Of.
    rewrite C. unfold ret, m_call. rewrite L. cbn [host]. split; [reflexivity|].
    destruct A as (x & -> & A). destruct (to_boolean_ok r) as (y & [= <-] & B). cbn [answer fst].
    f_equal. destruct (to_boolean r), x; intuition congruence.
  - intros w v t w1 f w' e O G N C L. exists 1%nat, (Throw e).
    intros [|fuel] Lf; [lia|]. rewrite instance_eq, O. unfold bind, get_method, bind, m_get. cbn [negb]. rewrite G.
    cbn [host]. pose proof (callable_obj f C) as Of. destruct f as [| | | | | | |f]; try discriminate Of.
    rewrite C. unfold ret, m_call. rewrite L. split; reflexivity.
  - intros w v t w1 f O G N C. exists 1%nat, (Throw EType).
    intros [|fuel] L; [lia|]. rewrite instance_eq, O. unfold bind, get_method, bind, m_get. cbn [negb]. rewrite G.
    cbn [host]. destruct f; try discriminate N; unfold ret; rewrite C; split; reflexivity.
  - intros w v t w1 f w' r O G N C HI IH. destruct (IH C) as (k & r' & IH'). exists (S k), r'.
    intros [|fuel] L; [lia|]. rewrite instance_eq, O. unfold bind, get_method, bind, m_get. cbn [negb]. rewrite G.
    cbn [host]. destruct f; try discriminate N; unfold ret; rewrite C; cbn [negb]; apply IH'; lia.
Qed.
End Ops.
