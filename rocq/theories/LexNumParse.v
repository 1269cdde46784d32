(** * parseFloat and parseInt *)
Require Import ZArith QArith List Bool Lia.
From Verif Require Import DtoaModel DtoaSpec LexNumModel LexNumSpec LexNumRound LexNumScan LexNumString LexNumConvert.
From Verif Require StrModel StrSpec.
Import ListNotations.
Local Open Scope Z_scope.

(** ** The characters that rjs_strtod and rjs_strtoi see *)
Definition stopper (c : Z) : bool := (c =? 0) || StrModel.is_white_space c.

Lemma trim_cut : forall a t, white a -> no_space t -> ~ In 0x85 t ->
  exists u y, t = u ++ y /\ c_string (trim (a ++ t)) = u /\ (y = [] \/ begins stopper y = true).
Proof.
  intros a t Ha NS N85.
  assert (S1 : snd (span StrModel.is_white_space (a ++ t)) = t).
  { rewrite span_app; [reflexivity| |].
    - eapply Forall_impl; [|exact Ha]. intros c Hc. apply space_facts in Hc. tauto.
    - destruct t as [|c t]; [reflexivity|]. cbn [begins].
      destruct (StrModel.is_white_space c) eqn:S; [|reflexivity]. exfalso.
      apply (NS c t eq_refl). apply space_back; [exact S|]. intros ->. apply N85. left. reflexivity. }
  unfold trim. rewrite S1.
  destruct (span StrModel.is_white_space (rev t)) as [y1 r1] eqn:SP.
  destruct (span_spec _ _ _ _ SP) as (E & F & _). cbn [snd].
  assert (ET : t = rev r1 ++ rev y1) by (rewrite <- rev_app_distr, <- E, rev_involutive; reflexivity).
  unfold c_string. destruct (span (fun c => negb (c =? 0)) (rev r1)) as [u y2] eqn:SP2.
  destruct (span_spec _ _ _ _ SP2) as (E2 & _ & B2). cbn [fst].
  exists u, (y2 ++ rev y1). split; [rewrite ET, E2, app_assoc; reflexivity|]. split; [reflexivity|].
  destruct y2 as [|c y2].
  - cbn [app]. destruct (rev y1) as [|c y] eqn:RY; [left; reflexivity|right].
    assert (In c y1) by (apply in_rev; rewrite RY; left; reflexivity).
    rewrite Forall_forall in F. cbn [begins]. unfold stopper. rewrite (F c H). apply orb_true_r.
  - right. cbn [app begins] in *. unfold stopper. apply negb_false_iff in B2. rewrite B2. reflexivity.
Qed.

Definition solid (w : list Z) : Prop := Forall (fun c => stopper c = false) w.

(** A prefix without stoppers is a prefix of the first part. *)
Lemma solid_prefix : forall u y w r, u ++ y = w ++ r -> (y = [] \/ begins stopper y = true) -> solid w ->
  exists r', u = w ++ r' /\ r = r' ++ y.
Proof.
  induction u as [|c u IH]; intros y w r E Y S.
  - cbn [app] in E. destruct w as [|d w]; [exists []; cbn [app] in *; auto|]. exfalso.
    destruct Y as [->|B]; [discriminate|]. cbn [app] in E. rewrite E in B. cbn [begins] in B. inversion S. congruence.
  - destruct w as [|d w]; [exists (c :: u); cbn [app] in *; auto|].
    cbn [app] in E. injection E as -> E. inversion S as [|? ? _ S']; subst. destruct (IH y w r E Y S') as (r' & -> & ->).
    exists r'. auto.
Qed.

Lemma digit_solid : forall c, digit_in 36 c -> stopper c = false.
Proof.
  intros c H. unfold digit_in, digit_of in H. unfold stopper, StrModel.is_white_space, StrModel.u_isUWhiteSpace.
  destruct ((48 <=? c) && (c <=? 57)) eqn:E1; destruct ((97 <=? c) && (c <=? 122)) eqn:E2;
  destruct ((65 <=? c) && (c <=? 90)) eqn:E3; lia.
Qed.

Lemma digits_solid : forall r w, r <= 36 -> digits r w -> solid w.
Proof.
  intros r w R H. eapply Forall_impl; [|exact H]. intros c Hc. apply digit_solid. unfold digit_in in *. lia.
Qed.

Lemma sign_solid : forall sg neg, sign_text sg neg -> solid sg.
Proof. intros sg neg H. inversion H; repeat constructor. Qed.

Lemma solid_app : forall a b, solid a -> solid b -> solid (a ++ b).
Proof. intros. apply Forall_app. split; assumption. Qed.

Lemma exponent_solid : forall x e, exponent_of x e -> solid x.
Proof.
  intros x e H. inversion H; subst; [constructor|]. constructor; [destruct H0 as [-> | ->]; reflexivity|].
  apply solid_app; [eapply sign_solid; eassumption|eapply digits_solid; [|eassumption]; lia].
Qed.

Lemma decimal_solid : forall w D E, decimal_of w D E -> solid w.
Proof.
  intros w D E H. inversion H; subst.
  - apply solid_app; [eapply digits_solid; [|eassumption]; lia|eapply exponent_solid; eassumption].
  - apply solid_app; [eapply digits_solid; [|eassumption]; lia|]. constructor; [reflexivity|].
    apply solid_app; [eapply digits_solid; [|eassumption]; lia|eapply exponent_solid; eassumption].
Qed.

Lemma float_solid : forall w v i, float_literal w v i -> solid w.
Proof.
  intros w v i H. inversion H; subst; (apply solid_app; [eapply sign_solid; eassumption|]).
  - eapply decimal_solid; eassumption.
  - repeat constructor.
Qed.

(** ** The longest decimal literal *)
Lemma run_compare : forall a x i s, digits 10 a -> digits 10 i -> begins is_digit s = false -> a ++ x = i ++ s ->
  (a = i /\ x = s) \/ (len a < len i /\ begins is_digit x = true).
Proof.
  induction a as [|c a IH]; intros x i s Da Di Bs E.
  - cbn [app] in E. destruct i as [|d i]; [left; auto|]. right. split; [unfold len; cbn [length]; lia|].
    rewrite E. cbn [app begins]. apply digit_ten. inversion Di; assumption.
  - destruct i as [|d i].
    + exfalso. cbn [app] in E. rewrite <- E in Bs. cbn [begins] in Bs. inversion Da as [|? ? D1 _].
      apply digit_ten in D1. congruence.
    + cbn [app] in E. injection E as -> E. inversion Da as [|? ? _ Da']. inversion Di as [|? ? _ Di']. subst.
      destruct (IH x i s Da' Di' Bs E) as [[-> ->]|[L B]]; [left; auto|right].
      split; [unfold len in *; cbn [length]; lia|exact B].
Qed.

Lemma exp_longest : forall s e s', strtod_exp s = (e, s') -> exists x f, s = x ++ s' /\ exponent_of x f /\
  e = (if 0 <=? f then Z.min f 19999 else - Z.min (- f) 19999) /\
  forall x' f' u, s = x' ++ u -> exponent_of x' f' -> len x' <= len x.
Proof.
  intros s e s' E.
  assert (NONE : (forall c sg g d w u, s = c :: sg ++ (d :: w) ++ u -> c = 101 \/ c = 69 -> sign_text sg g -> is_digit d = true -> False) ->
    e = 0 -> s' = s -> exists x f, s = x ++ s' /\ exponent_of x f /\
      e = (if 0 <=? f then Z.min f 19999 else - Z.min (- f) 19999) /\
      forall x' f' u, s = x' ++ u -> exponent_of x' f' -> len x' <= len x).
  { intros N -> ->. exists [], 0. split; [reflexivity|]. split; [constructor|]. split; [reflexivity|].
    intros x' f' u Q X. inversion X; subst; [lia|]. exfalso. destruct w as [|d w]; [contradiction|].
    eapply (N c sg neg d w u); [cbn [app]; rewrite <- app_assoc; reflexivity|assumption|eassumption|].
    apply digit_ten. inversion H2; assumption. }
  destruct s as [|c r]; cbn [strtod_exp] in E.
  { injection E as <- <-. apply NONE; [discriminate|reflexivity..]. }
  destruct ((c =? 101) || (c =? 69)) eqn:C.
  2:{ injection E as <- <-. apply NONE; [|reflexivity..]. intros c0 sg g d w u Q K _ _. injection Q as -> _.
      destruct K as [-> | ->]; discriminate. }
  assert (HC : c = 101 \/ c = 69) by lia.
  assert (SG : exists sg g t, (match r with
                 | d :: u => if d =? 45 then (true, u) else if d =? 43 then (false, u) else (false, r)
                 | [] => (false, r) end) = (g, t) /\ r = sg ++ t /\ sign_text sg g /\
                 (sg = [] -> begins (fun d => (d =? 43) || (d =? 45)) r = false)).
  { destruct r as [|d u].
    - exists [], false, []. repeat split; constructor.
    - destruct (Z.eqb_spec d 45) as [->|N1]; [exists [45], true, u; repeat split; [constructor|discriminate]|].
      destruct (Z.eqb_spec d 43) as [->|N2]; [exists [43], false, u; repeat split; [constructor|discriminate]|].
      exists [], false, (d :: u). repeat split; [constructor|]. intros _. cbn [begins].
      destruct (Z.eqb_spec d 43); [contradiction|]. destruct (Z.eqb_spec d 45); [contradiction|reflexivity]. }
  destruct SG as (sg & g & t & EQ & ER & SGT & SN). rewrite EQ in E.
  destruct (span is_digit t) as [x t'] eqn:SP. destruct (span_spec _ _ _ _ SP) as (ET & FX & BX).
  assert (SAME : forall sg0 g0 d w u, c :: r = c :: sg0 ++ (d :: w) ++ u -> sign_text sg0 g0 -> is_digit d = true ->
     sg0 = sg /\ (d :: w) ++ u = t).
  { intros sg0 g0 d w u Q S0 D. injection Q as Q. rewrite ER in Q.
    assert (ND : (d =? 43) || (d =? 45) = false).
    { unfold LexNumModel.is_digit in D. destruct (Z.eqb_spec d 43); [lia|]. destruct (Z.eqb_spec d 45); [lia|reflexivity]. }
    inversion SGT; subst sg; inversion S0; subst sg0; cbn [app] in Q; try (injection Q as Q); auto;
    try (specialize (SN eq_refl); rewrite ER in SN; cbn [app] in SN; rewrite Q in SN; cbn in SN; discriminate);
    try (subst d; discriminate); try discriminate. }
  destruct x as [|d x].
  - injection E as <- <-. apply NONE; [|reflexivity..].
    intros c0 sg0 g0 d w u Q _ S0 D. injection Q as -> Q.
    destruct (SAME sg0 g0 d w u ltac:(f_equal; exact Q) S0 D) as [_ Q2].
    cbn [app] in ET. rewrite <- ET, <- Q2 in BX. cbn [app begins] in BX. congruence.
  - injection E as <- <-. assert (DX : digits 10 (d :: x)) by (apply digits_ten; exact FX).
    pose proof (number_bound 10 (d :: x) ltac:(lia) DX) as NB.
    exists (c :: sg ++ d :: x), (if g then - number_of 10 (d :: x) else number_of 10 (d :: x)).
    split; [cbn [app]; rewrite <- app_assoc; rewrite ER, ET; reflexivity|].
    split; [apply exp_some; [exact HC|exact SGT|discriminate|exact DX]|]. split.
    + rewrite dec_value_number by exact DX. destruct g.
      * destruct (Z.leb_spec 0 (- number_of 10 (d :: x))); [lia|]. f_equal. f_equal. lia.
      * destruct (Z.leb_spec 0 (number_of 10 (d :: x))); [reflexivity|lia].
    + intros x' f' u Q X. inversion X; subst x'.
      { unfold len; cbn [length]; lia. }
      destruct w as [|d0 w]; [contradiction|]. cbn [app] in Q. rewrite <- app_assoc in Q. injection Q as -> Q.
      assert (D0 : is_digit d0 = true) by (apply digit_ten; inversion H2; assumption).
      destruct (SAME sg0 neg d0 w u ltac:(f_equal; exact Q) H0 D0) as [-> Q2].
      rewrite ET in Q2. destruct (run_compare _ _ _ _ H2 DX BX Q2) as [[E1 _]|[L _]].
      * rewrite E1. lia.
      * unfold len in *. cbn [length]. rewrite !app_length. cbn [length] in *. lia.
Qed.

Lemma exp_no_digit : forall x e u, exponent_of x e -> begins is_digit (x ++ u) = true -> x = [].
Proof. intros x e u X B. inversion X; subst; [reflexivity|]. cbn in B. destruct H as [-> | ->]; discriminate. Qed.

Lemma exp_no_dot : forall x e u t, exponent_of x e -> x ++ u = 46 :: t -> x = [].
Proof. intros x e u t X B. inversion X; subst; [reflexivity|]. injection B as -> _. lia. Qed.

Lemma body_longest : forall neg u v r, strtod_body neg u = Some (v, r) -> begins (Z.eqb 73) u = false -> len u <= 19000 ->
  exists w D E, u = w ++ r /\ decimal_of w D E /\ v = dec_double neg D E /\
  forall w' D' E' r', u = w' ++ r' -> decimal_of w' D' E' -> len w' <= len w.
Proof.
  intros neg u v r E NI LU. unfold strtod_body in E.
  destruct (span is_digit u) as [i s1] eqn:SP1. destruct (span_spec _ _ _ _ SP1) as (E1 & F1 & B1).
  apply digits_ten in F1.
  assert (DOT : (exists f s2, s1 = 46 :: f ++ s2 /\ digits 10 f /\ begins is_digit s2 = false /\
      (match s1 with
       | c :: r0 => if c =? 46 then let '(f0, t) := span is_digit r0 in (true, f0, t) else (false, [], s1)
       | [] => (false, [], s1) end) = (true, f, s2)) \/
     (begins (Z.eqb 46) s1 = false /\
      (match s1 with
       | c :: r0 => if c =? 46 then let '(f0, t) := span is_digit r0 in (true, f0, t) else (false, [], s1)
       | [] => (false, [], s1) end) = (false, [], s1))).
  { destruct s1 as [|c s1]; [right; auto|]. destruct (Z.eqb_spec c 46) as [->|N].
    - left. destruct (span is_digit s1) as [f s2] eqn:SP2. destruct (span_spec _ _ _ _ SP2) as (-> & F2 & B2).
      exists f, s2. split; [reflexivity|]. split; [apply digits_ten; exact F2|]. auto.
    - right. split; [|reflexivity]. change ((46 =? c) = false). apply Z.eqb_neq. lia. }
  destruct DOT as [(f & s2 & ES & DF & B2 & EQ)|[BD EQ]]; rewrite EQ in E; clear EQ.
  - destruct (i ++ f) as [|c l] eqn:EL.
    { destruct s2 as [|c s2]; [discriminate|]. cbn [negb andb] in E. discriminate. }
    destruct (strtod_exp s2) as [e s3] eqn:EX. injection E as <- <-.
    destruct (exp_longest _ _ _ EX) as (x & ff & EX1 & X & -> & MX).
    assert (DL : digits 10 (i ++ f)) by (apply Forall_app; split; assumption).
    assert (LL : len u = len i + 1 + len f + len x + len s3).
    { rewrite E1, ES, EX1. unfold len. rewrite !app_length. cbn [length]. rewrite !app_length. lia. }
    pose proof (number_bound 10 (i ++ f) ltac:(lia) DL) as NB.
    exists (i ++ 46 :: f ++ x), (number_of 10 (i ++ f)), (ff - len f).
    split; [rewrite E1, ES, EX1, <- app_assoc; cbn [app]; rewrite <- app_assoc; reflexivity|].
    split; [apply dec_point; [rewrite EL; discriminate|exact F1|exact DF|exact X]|].
    split.
    + rewrite <- EL, dec_value_number by exact DL.
      apply (cut_ok neg _ (Z.of_nat (length (i ++ f)))); [exact NB| |].
      * rewrite app_length, Nat2Z.inj_add. pose proof (len_nonneg x). pose proof (len_nonneg s3). unfold len in *. lia.
      * pose proof (len_nonneg x). pose proof (len_nonneg s3). unfold len in *. lia.
    + intros w' D' E' r' Q H. rewrite E1 in Q.
      assert (LW : len (i ++ 46 :: f ++ x) = len i + 1 + len f + len x).
      { unfold len. rewrite !app_length. cbn [length]. rewrite !app_length. lia. }
      pose proof (len_nonneg x). pose proof (len_nonneg f). pose proof (len_nonneg i).
      inversion H; subst w'.
      * rewrite <- app_assoc in Q. symmetry in Q.
        destruct (run_compare _ _ _ _ H4 F1 B1 Q) as [[-> Q2]|[L B]].
        -- rewrite ES in Q2. apply (exp_no_dot _ _ _ _ H5) in Q2. subst x0. rewrite app_nil_r. lia.
        -- apply (exp_no_digit _ _ _ H5) in B. subst x0. rewrite app_nil_r. lia.
      * rewrite <- app_assoc in Q. symmetry in Q. cbn [app] in Q.
        destruct (run_compare _ _ _ _ H4 F1 B1 Q) as [[-> Q2]|[L B]]; [|discriminate].
        rewrite ES in Q2. injection Q2 as Q2. rewrite <- app_assoc in Q2.
        assert (LW' : len (i ++ 46 :: f0 ++ x0) = len i + 1 + len f0 + len x0).
        { unfold len. rewrite !app_length. cbn [length]. rewrite !app_length. lia. }
        destruct (run_compare _ _ _ _ H5 DF B2 Q2) as [[-> Q3]|[L B]].
        -- symmetry in Q3. pose proof (MX _ _ _ Q3 H6). lia.
        -- apply (exp_no_digit _ _ _ H6) in B. subst x0. change (len []) with 0 in LW'. lia.
  - rewrite app_nil_r in E. destruct i as [|c l] eqn:EL.
    { destruct s1 as [|c s1]; [discriminate|]. cbn [negb andb] in E. cbn [app] in E1. subst u.
      change ((73 =? c) = false) in NI. rewrite Z.eqb_sym in NI. rewrite NI in E. discriminate. }
    rewrite <- EL in *. assert (NE : i <> []) by (rewrite EL; discriminate).
    destruct (strtod_exp s1) as [e s3] eqn:EX. injection E as <- <-.
    destruct (exp_longest _ _ _ EX) as (x & ff & EX1 & X & -> & MX).
    assert (LL : len u = len i + len x + len s3).
    { rewrite E1, EX1. unfold len. rewrite !app_length. lia. }
    pose proof (number_bound 10 i ltac:(lia) F1) as NB.
    exists (i ++ x), (number_of 10 i), ff.
    split; [rewrite E1, EX1, <- app_assoc; reflexivity|].
    split; [apply dec_whole; assumption|]. split.
    + rewrite dec_value_number by exact F1. change (Z.of_nat (length (@nil Z))) with 0.
      rewrite (cut_ok neg _ (Z.of_nat (length i))); [rewrite Z.sub_0_r; reflexivity|exact NB| |lia].
      pose proof (len_nonneg x). pose proof (len_nonneg s3). unfold len in *. lia.
    + intros w' D' E' r' Q H. rewrite E1 in Q.
      rewrite len_app. pose proof (len_nonneg x). pose proof (len_nonneg i).
      inversion H; subst w'.
      * rewrite <- app_assoc in Q. symmetry in Q. rewrite len_app.
        destruct (run_compare _ _ _ _ H3 F1 B1 Q) as [[-> Q2]|[L B]].
        -- symmetry in Q2. pose proof (MX _ _ _ Q2 H4). lia.
        -- apply (exp_no_digit _ _ _ H4) in B. subst x0. change (len []) with 0. lia.
      * exfalso. rewrite <- app_assoc in Q. symmetry in Q. cbn [app] in Q.
        destruct (run_compare _ _ _ _ H3 F1 B1 Q) as [[-> Q2]|[L B]]; [|discriminate].
        rewrite <- Q2 in BD. discriminate.
Qed.

Lemma body_none : forall neg u, strtod_body neg u = None -> forall w D E r, u = w ++ r -> ~ decimal_of w D E.
Proof.
  intros neg u E w D X r Q H. unfold strtod_body in E.
  destruct (span is_digit u) as [i s1] eqn:SP1. destruct (span_spec _ _ _ _ SP1) as (E1 & F1 & B1).
  destruct (decimal_head _ _ _ H) as [(c & t & -> & C)|(c & t & -> & C)].
  - rewrite Q in E1. cbn [app] in E1. destruct i as [|d i].
    + cbn [app] in E1. subst s1. cbn [begins] in B1. congruence.
    + destruct (match s1 with
       | c0 :: r0 => if c0 =? 46 then let '(f0, t0) := span is_digit r0 in (true, f0, t0) else (false, [], s1)
       | [] => (false, [], s1) end) as [[dot f] s2]. cbn [app] in E.
      destruct (strtod_exp s2). discriminate.
  - rewrite Q in SP1. cbn [app] in SP1. cbn [span] in SP1. change (is_digit 46) with false in SP1. cbv iota in SP1.
    injection SP1 as <- <-. cbn [Z.eqb Pos.eqb span] in E. rewrite C in E.
    destruct (span is_digit (t ++ r)) as [f s2]. cbn [app] in E. destruct (strtod_exp s2). discriminate.
Qed.

(** ** parseFloat *)

(** A text that begins with I after the sign begins with Infinity. *)
Definition proper_infinity (s : list Z) : Prop :=
  forall a sg neg u, s = a ++ sg ++ 73 :: u -> white a -> sign_text sg neg -> exists r, 73 :: u = infinity_text ++ r.

Lemma float_parts : forall w v i, float_literal w v i -> exists sg neg b, w = sg ++ b /\ sign_text sg neg /\
  (exists c t, b = c :: t /\ c <> 43 /\ c <> 45) /\
  ((i = false /\ exists D E, decimal_of b D E /\ rounds neg (dec_q D E) v) \/
   (i = true /\ b = infinity_text /\ v = Inf neg)).
Proof.
  intros w v i H. inversion H; subst.
  - exists sg, neg, w0. split; [reflexivity|]. split; [assumption|]. split.
    + destruct (decimal_head _ _ _ H1) as [(c & t & -> & C)|(c & t & -> & C)].
      * exists c, t. split; [reflexivity|]. apply digit_range in C. lia.
      * exists 46, (c :: t). split; [reflexivity|]. lia.
    + left. split; [reflexivity|]. exists D, E. auto.
  - exists sg, neg, infinity_text. split; [reflexivity|]. split; [assumption|].
    split; [eexists; eexists; split; [reflexivity|]; lia|]. right. auto.
Qed.

Lemma strtod_sign_spec : forall t, match strtod_sign t with
  | None => t = [] \/ t = [43] \/ t = [45]
  | Some (neg, u) => exists sg, sign_text sg neg /\ t = sg ++ u /\ u <> [] /\
      (sg = [] -> begins (fun c => (c =? 43) || (c =? 45)) t = false)
  end.
Proof.
  intros [|c t]; [left; reflexivity|]. cbn [strtod_sign].
  destruct (Z.eqb_spec c 45) as [->|N1].
  - destruct t as [|d t]; [right; right; reflexivity|]. exists [45]. repeat split; try discriminate. constructor.
  - destruct (Z.eqb_spec c 43) as [->|N2].
    + destruct t as [|d t]; [right; left; reflexivity|]. exists [43]. repeat split; try discriminate. constructor.
    + exists []. repeat split; try discriminate; [constructor|]. intros _. cbn [begins].
      destruct (Z.eqb_spec c 43); [contradiction|]. destruct (Z.eqb_spec c 45); [contradiction|reflexivity].
Qed.

Lemma same_sign : forall sg neg u sg' neg' b r, sign_text sg neg -> sign_text sg' neg' ->
  (sg = [] -> begins (fun c => (c =? 43) || (c =? 45)) (sg ++ u) = false) ->
  (exists c t, b = c :: t /\ c <> 43 /\ c <> 45) -> sg ++ u = (sg' ++ b) ++ r ->
  sg' = sg /\ neg' = neg /\ u = b ++ r.
Proof.
  intros sg neg u sg' neg' b r S S' N (c & t & -> & C1 & C2) E. rewrite <- app_assoc in E.
  inversion S; subst sg neg; inversion S'; subst sg' neg'; cbn [app] in E, N;
  try (injection E as E; lia); try discriminate; try (injection E as E; auto; fail); auto;
  specialize (N eq_refl); rewrite E in N; discriminate.
Qed.

Definition opens (t : list Z) : bool :=
  begins (fun c => negb (is_digit c || (c =? 46))) (match strtod_sign t with Some (_, u) => u | None => [] end).

Lemma strtod_float : forall t, begins is_c_space t = false -> len t <= 19000 -> proper_infinity t ->
  (exists w v i r, t = w ++ r /\ float_literal w v i /\ strtod t = (v, r) /\ opens t = i /\ w <> [] /\
     forall w' r' v' i', t = w' ++ r' -> float_literal w' v' i' -> len w' <= len w) \/
  (no_float t /\ strtod t = (Zero false, t)).
Proof.
  intros t NS LT PI. unfold strtod, opens.
  assert (S : snd (span is_c_space t) = t).
  { destruct t as [|c t]; [reflexivity|]. cbn [begins] in NS. cbn [span]. rewrite NS. reflexivity. }
  rewrite S. pose proof (strtod_sign_spec t) as SS.
  destruct (strtod_sign t) as [[neg u]|].
  2:{ right. split; [|reflexivity]. intros w r v i Q H. destruct (float_parts _ _ _ H) as (sg & g & b & -> & SG & (c & x & -> & C1 & C2) & _).
      destruct SS as [->|[->| ->]]; inversion SG; subst sg; cbn [app] in Q; try discriminate; injection Q as Q; try discriminate; lia. }
  destruct SS as (sg & SG & ET & NU & NB).
  assert (LU : len u <= 19000) by (rewrite ET, len_app in LT; pose proof (len_nonneg sg); lia).
  assert (UNI : forall w' r' v' i', t = w' ++ r' -> float_literal w' v' i' -> exists b, w' = sg ++ b /\ u = b ++ r' /\
     ((i' = false /\ exists D E, decimal_of b D E) \/ (i' = true /\ b = infinity_text))).
  { intros w' r' v' i' Q H. destruct (float_parts _ _ _ H) as (sg' & g' & b & -> & SG' & HB & K).
    rewrite ET in Q, NB. destruct (same_sign sg neg u sg' g' b r' SG SG' NB HB Q) as (-> & -> & ->).
    exists b. split; [reflexivity|]. split; [reflexivity|].
    destruct K as [(-> & D & E & K & _)|(-> & -> & _)]; [left; eauto|right; auto]. }
  destruct (begins (Z.eqb 73) u) eqn:BI.
  - destruct u as [|c u]; [discriminate|]. cbn [begins] in BI. apply Z.eqb_eq in BI. subst c.
    destruct (PI [] sg neg u ET ltac:(constructor) SG) as (r & ER). rewrite ER.
    left. exists (sg ++ infinity_text), (Inf neg), true, r.
    split; [rewrite ET, ER, app_assoc; reflexivity|]. split; [constructor; exact SG|]. split; [reflexivity|].
    split; [reflexivity|]. split; [intros Q; apply app_eq_nil in Q; destruct Q; discriminate|].
    intros w' r' v' i' Q H. destruct (UNI _ _ _ _ Q H) as (b & -> & QB & [(_ & D & E & K)|(_ & ->)]).
    + exfalso. rewrite ER in QB. destruct (decimal_head _ _ _ K) as [(d & x & -> & C)|(d & x & -> & C)]; injection QB as QB _;
      [subst d|]; discriminate.
    + lia.
  - destruct (strtod_body neg u) as [[v r]|] eqn:SB.
    + left. destruct (body_longest neg u v r SB BI LU) as (w & D & E & EU & DE & -> & MX).
      exists (sg ++ w), (dec_double neg D E), false, r.
      split; [rewrite ET, EU, app_assoc; reflexivity|].
      split; [apply (float_decimal sg neg w D E); [exact SG|exact DE|apply dec_double_spec; eapply decimal_nonneg; exact DE]|].
      split; [reflexivity|]. split.
      { rewrite EU. destruct (decimal_head _ _ _ DE) as [(d & x & -> & C)|(d & x & -> & C)]; cbn [app begins].
        - rewrite C. reflexivity.
        - reflexivity. }
      split.
      { intros Q. apply app_eq_nil in Q. destruct Q as [_ Q]. subst w.
        destruct (decimal_head _ _ _ DE) as [(d & x & Q & C)|(d & x & Q & C)]; discriminate. }
      intros w' r' v' i' Q H. destruct (UNI _ _ _ _ Q H) as (b & -> & QB & [(_ & D' & E' & K)|(_ & ->)]).
      * rewrite !len_app. pose proof (MX _ _ _ _ QB K). lia.
      * exfalso. rewrite QB in BI. discriminate.
    + right. split; [|reflexivity]. intros w' r' v' i' Q H.
      destruct (UNI _ _ _ _ Q H) as (b & -> & QB & [(_ & D' & E' & K)|(_ & ->)]).
      * exact (body_none neg u SB b D' E' r' QB K).
      * rewrite QB in BI. discriminate.
Qed.

Lemma dec_double_not_nan : forall neg D E, 0 <= D -> dec_double neg D E <> Nan.
Proof. intros neg D E H Q. pose proof (dec_double_spec neg D E H) as R. rewrite Q in R. exact R. Qed.

Lemma float_unique : forall w v i v' i', len w <= 19000 -> float_literal w v i -> float_literal w v' i' -> v = v' /\ i = i'.
Proof.
  intros w v i v' i' LW H H'. destruct (float_parts _ _ _ H) as (sg & g & b & -> & SG & HB & K).
  destruct (float_parts _ _ _ H') as (sg' & g' & b' & Q & SG' & HB' & K').
  assert (N : sg = [] -> begins (fun c => (c =? 43) || (c =? 45)) (sg ++ b) = false).
  { intros ->. destruct HB as (c & t & -> & C1 & C2). cbn [app begins].
    destruct (Z.eqb_spec c 43); [contradiction|]. destruct (Z.eqb_spec c 45); [contradiction|reflexivity]. }
  rewrite <- (app_nil_r (sg' ++ b')) in Q.
  destruct (same_sign sg g b sg' g' b' [] SG SG' N HB' Q) as (-> & -> & Q2). rewrite app_nil_r in Q2. subst b'.
  assert (X : forall D E, decimal_of infinity_text D E -> False).
  { intros D E DE. destruct (decimal_head _ _ _ DE) as [(d & x & Q2 & C)|(d & x & Q2 & C)]; injection Q2 as Q2 _;
    [subst d|]; discriminate. }
  destruct K as [(-> & D & E & DE & R)|(-> & -> & ->)]; destruct K' as [(-> & D' & E' & DE' & R')|(-> & E2 & ->)].
  - split; [|reflexivity].
    assert (L : len b <= 19000) by (rewrite len_app in LW; pose proof (len_nonneg sg); lia).
    pose proof (strtod_decimal b D E [] DE eq_refl L) as S1. pose proof (strtod_decimal b D' E' [] DE' eq_refl L) as S2.
    rewrite S1 in S2. injection S2 as S2.
    rewrite (dec_double_only _ _ _ _ (decimal_nonneg _ _ _ DE) R), (dec_double_only _ _ _ _ (decimal_nonneg _ _ _ DE') R').
    revert S2. unfold dec_double. intros S2. destruct g; [|exact S2].
    pose proof (f_equal LexNumModel.negate S2) as S3. rewrite !negate_double in S3. exact S3.
  - subst b. exfalso. eapply X; eassumption.
  - exfalso. eapply X; eassumption.
  - auto.
Qed.

Definition float_result (erange : bool) (v : num) (named : bool) : num :=
  match v with Inf _ => if erange || negb named then Nan else v | _ => v end.

Lemma white_split : forall a t b u, a ++ t = b ++ u -> white a -> white b -> no_space t -> no_space u -> a = b /\ t = u.
Proof.
  induction a as [|c a IH]; intros t b u E Ha Hb Nt Nu.
  - destruct b as [|d b]; [auto|]. exfalso. cbn [app] in E. inversion Hb; subst. apply (Nt d (b ++ u) eq_refl). assumption.
  - destruct b as [|d b].
    + exfalso. cbn [app] in E. inversion Ha; subst. apply (Nu c (a ++ t) eq_refl). assumption.
    + cbn [app] in E. injection E as -> E. inversion Ha; subst. inversion Hb; subst.
      destruct (IH t b u E ltac:(assumption) ltac:(assumption) Nt Nu) as [-> ->]. auto.
Qed.

Lemma white_prefix : forall s, exists a t, s = a ++ t /\ white a /\ no_space t.
Proof.
  assert (DEC : forall c, {StrSpec.es_space c} + {~ StrSpec.es_space c}) by (intros c; apply in_dec, Z.eq_dec).
  induction s as [|c s (a & t & -> & Ha & Nt)].
  - exists [], []. split; [reflexivity|]. split; [constructor|]. intros c r Q. discriminate.
  - destruct (DEC c) as [H|H].
    + exists (c :: a), t. split; [reflexivity|]. split; [constructor; assumption|exact Nt].
    + exists [], (c :: a ++ t). split; [reflexivity|]. split; [constructor|]. intros d r Q. injection Q as <- _. exact H.
Qed.

Lemma c_space_space : forall c, is_c_space c = true -> StrSpec.es_space c.
Proof.
  intros c H. unfold is_c_space in H. unfold StrSpec.es_space. cbn [In]. lia.
Qed.

Lemma prefix_infinity : forall a t u y, white a -> t = u ++ y -> (y = [] \/ begins stopper y = true) ->
  proper_infinity (a ++ t) -> no_space t -> proper_infinity u.
Proof.
  intros a t u y Ha ET Y PI NS a' sg neg x EU Ha' SG.
  assert (a' = []).
  { destruct a' as [|c a']; [reflexivity|]. exfalso. inversion Ha' as [|? ? Hc _]; subst. cbn [app] in NS.
    exact (NS _ _ eq_refl Hc). }
  subst a'. cbn [app] in EU.
  destruct (PI a sg neg (x ++ y)) as (r & ER); [|exact Ha|exact SG|].
  { rewrite ET, EU, <- app_assoc. reflexivity. }
  assert (SL : solid infinity_text) by repeat constructor.
  change (73 :: x ++ y) with ((73 :: x) ++ y) in ER.
  destruct (solid_prefix (73 :: x) y infinity_text r ER Y SL) as (r' & Q & _). exists r'. exact Q.
Qed.

Lemma parse_float_value : forall er s, ~ In 0x85 s -> len s <= 19000 -> proper_infinity s ->
  exists v i, float_of_string s v i /\ parse_float er s = float_result er v i.
Proof.
  intros er s N85 LS PI. destruct (white_prefix s) as (a & t & -> & Ha & NS).
  assert (N85t : ~ In 0x85 t) by (intros Q; apply N85; apply in_or_app; right; exact Q).
  destruct (trim_cut a t Ha NS N85t) as (u & y & ET & CS & Y).
  unfold parse_float. rewrite CS.
  assert (LU : len u <= 19000).
  { rewrite ET, !len_app in LS. pose proof (len_nonneg a). pose proof (len_nonneg y). lia. }
  assert (NSu : begins is_c_space u = false).
  { destruct u as [|c u]; [reflexivity|]. cbn [begins]. destruct (is_c_space c) eqn:C; [|reflexivity]. exfalso.
    apply (NS c (u ++ y)); [rewrite ET; reflexivity|]. apply c_space_space. exact C. }
  destruct (strtod_float u NSu LU (prefix_infinity a t u y Ha ET Y PI NS)) as
    [(w & v & i & r & EU & FL & ST & OP & NW & MX)|(NF & ST)].
  - exists v, i. split.
    + exists a, t. split; [reflexivity|]. split; [exact Ha|]. split; [exact NS|]. left. exists w. split; [|exact FL].
      split; [exists (r ++ y); rewrite ET, EU, <- app_assoc; reflexivity|]. split; [exists v, i; exact FL|].
      intros w' r' v' i' Q H. rewrite ET in Q.
      destruct (solid_prefix u y w' r' Q Y (float_solid _ _ _ H)) as (r2 & Q2 & _). exact (MX _ _ _ _ Q2 H).
    + destruct u as [|c u]; [destruct w; [contradiction|discriminate]|]. rewrite ST.
      assert (SP : same_place r (c :: u) = false).
      { unfold same_place. apply Nat.eqb_neq. rewrite EU, app_length. destruct w; [contradiction|]. cbn [length]. lia. }
      rewrite SP. unfold float_result. destruct v; try reflexivity. unfold opens in OP. rewrite OP. reflexivity.
  - exists Nan, false. split.
    + exists a, t. split; [reflexivity|]. split; [exact Ha|]. split; [exact NS|]. right. split; [|auto].
      intros w' r' v' i' Q H. rewrite ET in Q.
      destruct (solid_prefix u y w' r' Q Y (float_solid _ _ _ H)) as (r2 & Q2 & _). exact (NF _ _ _ _ Q2 H).
    + destruct u as [|c u]; [reflexivity|]. rewrite ST. unfold same_place. rewrite Nat.eqb_refl. reflexivity.
Qed.

Lemma float_of_unique : forall s v i v' i', len s <= 19000 -> float_of_string s v i -> float_of_string s v' i' ->
  v = v' /\ i = i'.
Proof.
  intros s v i v' i' LS (a & t & -> & Ha & NS & K) (a' & t' & E & Ha' & NS' & K').
  destruct (white_split _ _ _ _ E Ha Ha' NS NS') as [<- <-].
  destruct K as [(w & ((r & ET) & _ & MX) & FL)|(NF & -> & ->)]; destruct K' as [(w' & ((r' & ET') & _ & MX') & FL')|(NF' & -> & ->)].
  - pose proof (MX _ _ _ _ ET' FL') as L1. pose proof (MX' _ _ _ _ ET FL) as L2.
    assert (w = w').
    { assert (QQ : w ++ r = w' ++ r') by congruence. assert (LL : length w = length w') by (unfold len in *; lia).
      clear - QQ LL. revert w' QQ LL. induction w as [|c w IH]; intros [|c' w'] QQ LL; try discriminate; [reflexivity|].
      cbn [app] in QQ. injection QQ as -> QQ. f_equal. apply IH; [exact QQ|]. injection LL as LL. exact LL. }
    subst w'. apply (float_unique w); [|assumption|assumption].
    rewrite ET, !len_app in LS. pose proof (len_nonneg a). pose proof (len_nonneg r). lia.
  - exfalso. exact (NF' _ _ _ _ ET FL).
  - exfalso. exact (NF _ _ _ _ ET' FL').
  - auto.
Qed.

Lemma parse_float_exact : forall er s v i, ~ In 0x85 s -> len s <= 19000 -> proper_infinity s ->
  float_of_string s v i -> parse_float er s = float_result er v i.
Proof.
  intros er s v i N L P F. destruct (parse_float_value er s N L P) as (v' & i' & F' & E).
  destruct (float_of_unique s v i v' i' L F F') as [-> ->]. exact E.
Qed.

(** ** parseInt *)
Definition int_result (v : num) : num := match v with Inf _ => Nan | _ => v end.

Lemma begins_prefix : forall f t' y, begins f (t' ++ y) = false -> begins f t' = false.
Proof. intros f [|c t'] y H; [reflexivity|exact H]. Qed.

Lemma strtoi_split : forall sg neg p r radix w t, sign_text sg neg ->
  begins is_c_space (sg ++ p ++ w ++ t) = false ->
  (sg = [] -> forall c u, p ++ w ++ t = c :: u -> c <> 43 /\ c <> 45) ->
  int_radix radix p (w ++ t) r -> radix = 0 \/ 2 <= radix <= 36 ->
  strtoi (sg ++ p ++ w ++ t) radix =
  if r =? 10 then strtod (sg ++ p ++ w ++ t)
  else let '(d, u) := strtoi_loop r (Some 0) (w ++ t) in (whole neg d, u).
Proof.
  intros sg neg p r radix w t SG NS NU IR HR. unfold strtoi.
  assert (S : snd (span is_c_space (sg ++ p ++ w ++ t)) = sg ++ p ++ w ++ t).
  { destruct (sg ++ p ++ w ++ t) as [|c x]; [reflexivity|]. cbn [begins] in NS. cbn [span]. rewrite NS. reflexivity. }
  rewrite S.
  assert (G : (match sg ++ p ++ w ++ t with
               | [] => (false, sg ++ p ++ w ++ t)
               | c :: r0 => if c =? 43 then (false, r0) else if c =? 45 then (true, r0) else (false, sg ++ p ++ w ++ t)
               end) = (neg, p ++ w ++ t)).
  { inversion SG; subst; cbn [app]; try reflexivity. specialize (NU eq_refl).
    destruct (p ++ w ++ t) as [|c x]; [reflexivity|]. destruct (NU c x eq_refl) as [N1 N2].
    destruct (Z.eqb_spec c 43); [contradiction|]. destruct (Z.eqb_spec c 45); [contradiction|reflexivity]. }
  rewrite G.
  destruct IR as [(HX & HP & ->)|(-> & NX & ->)].
  - assert (B : (radix =? 0) || (radix =? 16) = true) by lia. rewrite B.
    destruct HP as [-> | ->]; cbn [app Z.eqb Pos.eqb andb orb]; reflexivity.
  - cbn [app].
    assert (P : (if (radix =? 0) || (radix =? 16) then
        match w ++ t with
        | a :: b0 :: r => if (a =? 48) && ((b0 =? 120) || (b0 =? 88)) then (16, r) else (radix, w ++ t)
        | _ => (radix, w ++ t)
        end
      else (radix, w ++ t)) = (radix, w ++ t)).
    { destruct ((radix =? 0) || (radix =? 16)) eqn:B; [|reflexivity].
      assert (HX : radix = 0 \/ radix = 16) by lia. specialize (NX HX).
      destruct (w ++ t) as [|x1 [|x2 x]]; [reflexivity..|]. destruct (NX x) as [N1 N2].
      destruct (Z.eqb_spec x1 48) as [->|]; [|reflexivity].
      destruct (Z.eqb_spec x2 120) as [->|]; [contradiction|].
      destruct (Z.eqb_spec x2 88) as [->|]; [contradiction|reflexivity]. }
    rewrite P. destruct (Z.eqb_spec radix 0) as [->|N]; reflexivity.
Qed.

Lemma parse_int_exact : forall s radix a sg neg p r w t, ~ In 0x85 s -> len s <= 19000 ->
  radix = 0 \/ 2 <= radix <= 36 -> int_parts s radix a sg neg p r w t ->
  (w <> [] -> (if r =? 10 then no_more t else number_of r w <= 2 ^ 53) ->
     parse_int s radix = int_result (to_double neg (number_of r w) 1)) /\
  (w = [] -> (if r =? 10 then begins (Z.eqb 46) t = false else sg ++ p = []) -> parse_int s radix = Nan).
Proof.
  intros s radix a sg neg p r w t N85 LS HR [PA PW PS PG PU PR PD PT].
  assert (N85t : ~ In 0x85 (sg ++ p ++ w ++ t)) by (intros Q; apply N85; rewrite PA; apply in_or_app; right; exact Q).
  destruct (trim_cut a (sg ++ p ++ w ++ t) PW PS N85t) as (u & y & ET & CS & Y).
  assert (R36 : 2 <= r <= 36).
  { destruct PR as [(_ & _ & ->)|(_ & _ & ->)]; [lia|]. destruct (Z.eqb_spec radix 0); lia. }
  assert (SL : solid ((sg ++ p) ++ w)).
  { apply solid_app; [apply solid_app; [eapply sign_solid; exact PG|]|eapply digits_solid; [|exact PD]; lia].
    destruct PR as [(_ & [-> | ->] & _)|(-> & _)]; repeat constructor. }
  assert (ET2 : u ++ y = ((sg ++ p) ++ w) ++ t) by (rewrite <- ET, <- !app_assoc; reflexivity).
  destruct (solid_prefix u y _ t ET2 Y SL) as (t' & EU & Et).
  rewrite <- !app_assoc in EU.
  assert (LU : len u <= 19000).
  { rewrite PA, ET, !len_app in LS. pose proof (len_nonneg a). pose proof (len_nonneg y). lia. }
  assert (NSu : begins is_c_space u = false).
  { destruct u as [|c v]; [reflexivity|]. cbn [begins]. destruct (is_c_space c) eqn:C; [|reflexivity]. exfalso.
    apply (PS c (v ++ y)); [rewrite ET; reflexivity|]. apply c_space_space. exact C. }
  assert (ST : strtoi u radix = if r =? 10 then strtod u
     else let '(d, x) := strtoi_loop r (Some 0) (w ++ t') in (whole neg d, x)).
  { rewrite EU. apply strtoi_split; [exact PG|rewrite <- EU; exact NSu| | |exact HR].
    - intros Q c x E. apply (PU Q c (x ++ y)). rewrite Et, !app_assoc. rewrite !app_assoc in E. rewrite E. reflexivity.
    - destruct PR as [H|(-> & NX & ->)]; [left; exact H|right]. split; [reflexivity|]. split; [|reflexivity].
      intros HX x. destruct (NX HX (x ++ y)) as [N1 N2]. rewrite Et, app_assoc in N1, N2.
      split; intros Q; rewrite Q in N1, N2; [apply N1|apply N2]; reflexivity. }
  assert (T' : begins (fun c => digit_of c <? r) t' = false).
  { destruct t' as [|c x]; [reflexivity|]. cbn [begins]. apply Z.ltb_ge.
    specialize (PT c (x ++ y)). rewrite Et in PT. specialize (PT eq_refl). unfold digit_in in PT. lia. }
  unfold parse_int. replace (negb (radix =? 0) && ((radix <? 2) || (36 <? radix))) with false by lia.
  rewrite PA, CS. split; intros HW GD.
  - destruct u as [|c0 u0] eqn:HU.
    { exfalso. symmetry in EU. apply app_eq_nil in EU. destruct EU as [_ EU]. apply app_eq_nil in EU. destruct EU as [_ EU].
      apply app_eq_nil in EU. tauto. }
    rewrite <- HU in *. rewrite ST.
    assert (NP : forall x, u = (sg ++ p ++ w) ++ x -> same_place x u = false).
    { intros x Q. unfold same_place. apply Nat.eqb_neq. rewrite Q. rewrite !app_length.
      destruct w; [contradiction|]. cbn [length]. lia. }
    destruct (Z.eqb_spec r 10) as [->|N10].
    + assert (PE : p = []).
      { destruct PR as [(_ & _ & Q)|(Q & _)]; [discriminate|exact Q]. }
      rewrite PE in *. cbn [app] in EU.
      assert (DE : decimal_of w (number_of 10 w) 0).
      { rewrite <- (app_nil_r w) at 1. apply dec_whole; [exact HW|exact PD|constructor]. }
      assert (NM : no_more t') by (unfold no_more in *; rewrite Et in GD; eapply begins_prefix; exact GD).
      assert (SG : strtod u = (dec_double neg (number_of 10 w) 0, t')).
      { unfold strtod.
        assert (S : snd (span is_c_space u) = u).
        { rewrite HU in *. cbn [begins] in NSu. cbn [span]. rewrite NSu. reflexivity. }
        rewrite S. assert (SS : strtod_sign u = Some (neg, w ++ t')).
        { rewrite EU. destruct w as [|c w]; [contradiction|]. inversion PG; subst sg neg; cbn [app]; try reflexivity.
          cbn [strtod_sign]. inversion PD as [|? ? D1 _]. apply digit_ten, digit_range in D1.
          replace ((c =? 45) || (c =? 43)) with false by lia. reflexivity. }
        rewrite SS. rewrite body_read with (D := number_of 10 w) (E := 0); [reflexivity|exact DE|exact NM|].
        rewrite EU, !len_app in LU. pose proof (len_nonneg sg). pose proof (len_nonneg t'). lia. }
      rewrite SG, (NP t') by (rewrite EU; cbn [app]; rewrite <- !app_assoc; reflexivity).
      unfold dec_double. cbn [Z.max Z.opp Z.pow]. change (10 ^ Z.max 0 0) with 1. change (10 ^ Z.max (- 0) 0) with 1.
      rewrite Z.mul_1_r. reflexivity.
    + pose proof (strtoi_loop_ok r R36 N10 w [] t' ltac:(constructor) PD T' GD) as Q.
      cbn [app] in Q. change (number_of r []) with 0 in Q. rewrite Q.
      rewrite (NP t') by (rewrite EU, <- !app_assoc; reflexivity). reflexivity.
  - subst w. destruct u as [|c0 u0] eqn:HU; [reflexivity|]. rewrite <- HU in *. rewrite ST.
    destruct (Z.eqb_spec r 10) as [->|N10].
    + assert (PE : p = []).
      { destruct PR as [(_ & _ & Q)|(Q & _)]; [discriminate|exact Q]. }
      rewrite PE in *. cbn [app] in EU, T'.
      assert (BD : begins (Z.eqb 46) t' = false) by (rewrite Et in GD; eapply begins_prefix; exact GD).
      assert (D10 : begins is_digit t' = false).
      { destruct t' as [|c x]; [reflexivity|]. cbn [begins] in T' |- *. destruct (is_digit c) eqn:C; [|reflexivity].
        apply digit_ten in C. unfold digit_in in C. apply Z.ltb_ge in T'. lia. }
      unfold strtod.
      assert (S : snd (span is_c_space u) = u).
      { rewrite HU in *. cbn [begins] in NSu. cbn [span]. rewrite NSu. reflexivity. }
      rewrite S. pose proof (strtod_sign_spec u) as SS. destruct (strtod_sign u) as [[g x]|].
      2:{ unfold same_place. rewrite Nat.eqb_refl. reflexivity. }
      assert (SB : match strtod_body g x with None => True | Some (v, _) => exists g, v = Inf g end).
      { destruct SS as (sg' & SG' & Q & NX & NB).
        assert (x = t').
        { rewrite EU in Q, NB. inversion PG; subst sg; inversion SG'; subst sg'; cbn [app] in Q;
          try (injection Q as Q); auto; try discriminate.
          all: try (exfalso; specialize (NB eq_refl); discriminate).
          all: exfalso; rewrite Et in PU; cbn [app] in PU; rewrite Q in PU;
               destruct (PU eq_refl _ _ eq_refl) as [Z1 Z2]; try (apply Z1; reflexivity); apply Z2; reflexivity. }
        subst x. destruct t' as [|c x]; [contradiction|]. unfold strtod_body. cbn [span].
        cbn [begins] in D10, BD. rewrite D10. rewrite Z.eqb_sym in BD. rewrite BD. cbn [app negb andb].
        destruct (c =? 73); [|exact I]. destruct (match_word [110; 102] x) as [z|]; [|exact I].
        destruct (match_word [105; 110; 105; 116; 121] z); eexists; reflexivity. }
      destruct (strtod_body g x) as [[v z]|].
      * destruct SB as (g' & ->). destruct (same_place z u); reflexivity.
      * unfold same_place. rewrite Nat.eqb_refl. reflexivity.
    + apply app_eq_nil in GD. destruct GD as [-> ->]. cbn [app] in EU |- *.
      pose proof (strtoi_loop_ok r R36 N10 [] [] t' ltac:(constructor) ltac:(constructor) T') as Q.
      cbn [app] in Q. change (number_of r []) with 0 in Q. rewrite Q by lia. rewrite EU.
      unfold same_place. rewrite Nat.eqb_refl. reflexivity.
Qed.
