(** Programs that import modules one after the other, without top level await. *)

From Coq Require Import ZArith List Bool Arith Lia Relations.
From Verif Require Import ModModel ModSpec ModDfs ModLink ModEval ModAsync.
Import ListNotations.

Section Program.
Variable G : graph.
Notation rq := (reqs G).
Variable U : list nat.
Hypothesis HU : closed rq U.
Hypothesis Htla : forall x, In x U -> tla G x = false.

Definition clean (r : modrec) : Prop := aeval r = 0 /\ pend r = 0%Z /\ err r = None /\ top r = None.

Record Well (s : st) : Prop := {
  w_calm : forall x, In x U -> (stat (mods s x) = Unlinked /\ clean (mods s x)) \/ calm1 rq s x;
  w_sound : forall x y, In x U -> linked (stat (mods s x)) = true -> In y (rq x) -> linked (stat (mods s y)) = true;
  w_idle : forall x, ~ In x U -> stat (mods s x) = Unlinked;
  w_late : forall x, In x (sta (log s)) -> In x U /\ stat (mods s x) = Evaluated;
  w_ran : forall x, In x U -> stat (mods s x) = Evaluated -> err (mods s x) = None -> In x (sta (log s));
  w_once : NoDup (sta (log s));
  w_order : in_order rq (fun _ => True) (rev (sta (log s))) }.

Lemma calm1_linked s x : calm1 rq s x -> linked (stat (mods s x)) = true.
Proof. intros [(a & _)|[(a & _)|(a & _)]]; rewrite a; reflexivity. Qed.

Lemma well_stat s x : Well s -> In x U -> stat (mods s x) = Unlinked \/ linked (stat (mods s x)) = true.
Proof. intros W Hx. destruct (w_calm s W x Hx) as [[h _]|h]; [now left|right; now apply calm1_linked in h]. Qed.

(** Linking. *)
Lemma well_link s s' : Well s ->
  (forall x, stat (mods s' x) = stat (mods s x) \/ (In x U /\ stat (mods s x) = Unlinked /\ stat (mods s' x) = Linked)) ->
  (forall x, rest (mods s' x) = rest (mods s x)) -> sta (log s') = sta (log s) ->
  (forall x y, In x U -> linked (stat (mods s' x)) = true -> In y (rq x) -> linked (stat (mods s' y)) = true) ->
  Well s'.
Proof.
  intros Wl Hst Hr Hl Hso.
  assert (Hf : forall x, aeval (mods s' x) = aeval (mods s x) /\ pend (mods s' x) = pend (mods s x) /\ root (mods s' x) = root (mods s x) /\
     err (mods s' x) = err (mods s x) /\ top (mods s' x) = top (mods s x)).
  { intros x. specialize (Hr x). unfold rest in Hr. injection Hr. intros. auto 10. }
  assert (He : forall x, stat (mods s x) = Evaluated -> stat (mods s' x) = Evaluated).
  { intros x Hx. destruct (Hst x) as [h|(_ & h & _)]; congruence. }
  assert (He' : forall x, stat (mods s' x) = Evaluated -> stat (mods s x) = Evaluated).
  { intros x Hx. destruct (Hst x) as [h|(_ & _ & h)]; congruence. }
  constructor.
  - intros x Hx. destruct (Hf x) as (f1 & f2 & f3 & f4 & f5). destruct (w_calm s Wl x Hx) as [[h (h1 & h2 & h3 & h4)]|h].
    + destruct (Hst x) as [k|(_ & _ & k)].
      * left. split; [congruence|]. unfold clean. rewrite f1, f2, f4, f5. auto.
      * right. left. rewrite f1, f2, f4, f5. auto.
    + right. destruct h as [(h1 & h2 & h3 & h4 & h5)|[(h1 & h2 & h3 & (q & h4 & h5 & h6 & h7 & h8) & h9)|(h1 & e & h2 & h3 & h4)]].
      * left. rewrite f1, f2, f4, f5. destruct (Hst x) as [k|(_ & k & _)]; [rewrite k; auto|congruence].
      * right. left. rewrite f4, f5. split; [auto|]. split; [assumption|]. split; [assumption|]. split.
        -- exists q. destruct (Hf q) as (g1 & _ & _ & g4 & _). rewrite f3, g1, g4. auto.
        -- intros y Hy. destruct (Hf y) as (_ & _ & _ & g4 & _). rewrite g4. destruct (h9 y Hy). auto.
      * right. right. split; [auto|]. exists e. rewrite f3, f4, f5. auto.
  - exact Hso.
  - intros x Hx. destruct (Hst x) as [h|(h & _)]; [|contradiction]. rewrite h. now apply (w_idle s Wl).
  - intros x Hx. rewrite Hl in Hx. destruct (w_late s Wl x Hx). auto.
  - intros x Hx h1 h2. rewrite Hl. destruct (Hf x) as (_ & _ & _ & f4 & _). apply (w_ran s Wl); [assumption|auto|congruence].
  - rewrite Hl. apply (w_once s Wl).
  - rewrite Hl. apply (w_order s Wl).
Qed.

(** Evaluating. *)
Definition V0 (s : st) : list nat := filter (fun x => linked (stat (mods s x))) U.

Lemma V0_in s x : In x (V0 s) <-> In x U /\ linked (stat (mods s x)) = true.
Proof. apply filter_In. Qed.

Lemma V0_closed s : Well s -> closed rq (V0 s).
Proof.
  intros Wl. split.
  - apply NoDup_filter. apply HU.
  - intros x y Hx Hy. apply V0_in in Hx. apply V0_in. destruct Hx as [h1 h2].
    split; [exact (proj2 HU x y h1 Hy)|]. exact (w_sound s Wl x y h1 h2 Hy).
Qed.

Lemma V0_calm s : Well s -> calm rq (V0 s) s.
Proof.
  intros Wl x Hx. apply V0_in in Hx. destruct Hx as [h1 h2]. destruct (w_calm s Wl x h1) as [[h _]|h]; [|assumption].
  rewrite h in h2. discriminate.
Qed.

Lemma sta_run l r : sta (rev (run_all l) ++ r) = rev l ++ sta r.
Proof. rewrite <- (rev_involutive l) at 1. rewrite <- ran_run. apply sta_ran. Qed.

Lemma sta_app a b : sta (a ++ b) = sta a ++ sta b.
Proof. apply flat_map_app. Qed.

Lemma order_app a b : in_order rq (fun _ => True) a ->
  (forall p x q, b = p ++ x :: q -> forall y, In y (rq x) -> ~ reach rq y x -> In y a \/ In y p) ->
  in_order rq (fun _ => True) (a ++ b).
Proof.
  intros Ha Hb p x q E y Hy _ Hr.
  destruct (in_dec Nat.eq_dec y p) as [h|h]; [assumption|exfalso].
  destruct (le_lt_dec (length a) (length p)) as [hl|hl].
  - assert (Ep : p = a ++ skipn (length a) p /\ b = skipn (length a) p ++ x :: q).
    { assert (E' : firstn (length a) (a ++ b) = firstn (length a) (p ++ x :: q)) by now rewrite E.
      assert (E2 : skipn (length a) (a ++ b) = skipn (length a) (p ++ x :: q)) by now rewrite E.
      rewrite firstn_app, Nat.sub_diag, firstn_all, firstn_app in E'. rewrite skipn_app, Nat.sub_diag, skipn_all, skipn_app in E2.
      replace (length a - length p) with 0 in * by lia. cbn in E', E2. rewrite !app_nil_r in E'.
      split; [|assumption]. rewrite E' at 1. now rewrite firstn_skipn. }
    destruct Ep as [Ep Eb]. destruct (Hb _ x q Eb y Hy Hr) as [k|k]; apply h; rewrite Ep; apply in_or_app; auto.
  - assert (Ea : a = p ++ x :: firstn (length a - length p - 1) q).
    { assert (E' : firstn (length a) (a ++ b) = firstn (length a) (p ++ x :: q)) by now rewrite E.
      rewrite firstn_app, Nat.sub_diag, firstn_all, firstn_app in E'. cbn in E'. rewrite app_nil_r in E'.
      rewrite E' at 1. rewrite firstn_all2 by lia. f_equal.
      destruct (length a - length p) as [|k] eqn:Ek; [lia|]. cbn. now rewrite Nat.sub_0_r. }
    apply h. exact (Ha p x _ Ea y Hy Logic.I Hr).
Qed.

Lemma well_eval s m r s' : Well s -> In m U -> linked (stat (mods s m)) = true ->
  W s s' -> evaluated rq (body G) (V0 s) m r s s' -> Well s'.
Proof.
  intros Wl HmU Hml (_ & w2 & _) (e1 & e2 & e3 & e4 & e5).
  assert (HmV : In m (V0 s)) by (apply V0_in; auto).
  assert (HV := V0_closed s Wl).
  assert (Hreach : forall x, reach rq m x -> In x (V0 s)) by (intros x Hx; exact (reach_U G (V0 s) m x HV HmV Hx)).
  assert (HrV : In r (V0 s)) by (apply Hreach, e2).
  assert (Hout : forall x, ~ In x (V0 s) -> mods s' x = mods s x).
  { intros x Hx. apply e4; [intros [h _]; contradiction|]. intros ->. contradiction. }
  assert (Hlk : forall x, In x (V0 s) -> linked (stat (mods s' x)) = true) by (intros x Hx; eapply calm1_linked, e1; assumption).
  assert (HN : exists new, sta (log s') = rev new ++ sta (log s) /\ NoDup new /\
     (forall x, In x new -> stat (mods s x) = Linked /\ reach rq m x /\ stat (mods s' x) = Evaluated) /\
     in_order rq (fun y => stat (mods s y) = Linked) new /\
     (forall x y, In x new -> In y (rq x) -> err (mods s y) = None) /\
     (forall x, In x (V0 s) -> stat (mods s' x) = Evaluated -> err (mods s' x) = None -> In x (sta (log s')))).
  { assert (HC : forall x, In x (V0 s) -> stat (mods s x) = Linked \/ stat (mods s x) = Evaluated).
    { intros x Hx. destruct (V0_calm s Wl x Hx) as [(a & _)|[(a & _)|(a & _)]]; auto. }
    destruct e5 as [(new & a1 & a2 & a3 & a4 & a5 & a6 & a7)|(e & new & bad & a1 & a2 & a3 & (z & a4 & a4') & a5 & a6 & a7 & a8 & a9 & a10 & a11 & a12 & a13)].
    - exists new. assert (n1 : sta (log s') = rev new ++ sta (log s)) by (rewrite a2; apply sta_run).
      split; [assumption|]. split; [assumption|]. split; [|split; [assumption|split]].
      + intros x Hx. apply a4 in Hx. destruct Hx as [h1 h2]. split; [assumption|]. split; [assumption|]. now apply a7.
      + intros x y Hx Hy. apply a4 in Hx. destruct Hx as [_ h2].
        assert (Hmy : reach rq m y) by (eapply rt_trans; [exact h2|now apply rt_step]).
        destruct (a7 y Hmy) as [h3 h4]. assert (HyV := Hreach y Hmy).
        destruct (HC y HyV) as [k|k].
        * destruct (V0_calm s Wl y HyV) as [(_ & _ & _ & a & _)|[(a & _)|(a & _)]]; congruence.
        * destruct (w2 y k). congruence.
      + intros x Hx h1 h2. rewrite n1. apply in_or_app. destruct (HC x Hx) as [k|k].
        * left. rewrite <- in_rev. apply a4. split; [assumption|].
          destruct (in_dec Nat.eq_dec x new) as [hn|hn]; [now apply a4|]. exfalso.
          assert (Hnr : ~ reach rq m x) by (intros hr; apply hn, a4; auto).
          rewrite e4 in h1; [congruence|intros (_ & _ & h); contradiction|]. intros ->. apply Hnr, e2.
        * right. apply V0_in in Hx. destruct (w2 x k). apply (w_ran s Wl); [apply Hx|assumption|congruence].
    - exists (new ++ bad).
      assert (n1 : sta (log s') = rev (new ++ bad) ++ sta (log s)).
      { rewrite a5, rev_app_distr, <- app_assoc, sta_app, sta_run, rev_app_distr, <- app_assoc. f_equal.
        clear - a6. destruct bad as [|x [|y bad]]; [reflexivity|reflexivity|cbn in a6; lia]. }
      split; [assumption|]. split; [assumption|]. split; [assumption|]. split; [assumption|]. split; [assumption|].
      intros x Hx h1 h2. rewrite n1. apply in_or_app. destruct (HC x Hx) as [k|k].
      + left. rewrite <- in_rev. now apply a12.
      + right. apply V0_in in Hx. destruct (w2 x k). apply (w_ran s Wl); [apply Hx|assumption|congruence]. }
  destruct HN as (new & n1 & n2 & n3 & n4 & n5 & n6).
  constructor.
  - intros x Hx. destruct (in_dec Nat.eq_dec x (V0 s)) as [h|h]; [right; now apply e1|].
    left. rewrite Hout by assumption. destruct (w_calm s Wl x Hx) as [k|k]; [assumption|].
    exfalso. apply h, V0_in. split; [assumption|]. now apply calm1_linked in k.
  - intros x y Hx Hl Hy. destruct (in_dec Nat.eq_dec x (V0 s)) as [h|h].
    + apply Hlk. exact (proj2 HV x y h Hy).
    + rewrite Hout in Hl by assumption. exfalso. apply h, V0_in. auto.
  - intros x Hx. rewrite Hout; [now apply (w_idle s Wl)|]. intros h. apply V0_in in h. destruct h. contradiction.
  - intros x Hx. rewrite n1 in Hx. apply in_app_or in Hx. destruct Hx as [Hx|Hx].
    + apply in_rev in Hx. destruct (n3 x Hx) as (_ & h1 & h2). split; [|assumption]. apply Hreach, V0_in in h1. apply h1.
    + destruct (w_late s Wl x Hx) as [h1 h2]. split; [assumption|]. now apply w2.
  - intros x Hx h1 h2. destruct (in_dec Nat.eq_dec x (V0 s)) as [h|h]; [now apply n6|].
    rewrite Hout in * by assumption. rewrite n1. apply in_or_app. right. now apply (w_ran s Wl).
  - rewrite n1. assert (Hd : forall x, In x (rev new) -> ~ In x (sta (log s))).
    { intros x Hx h. apply in_rev in Hx. destruct (n3 x Hx) as (k & _). destruct (w_late s Wl x h). congruence. }
    apply NoDup_rev in n2. clear - n2 Hd Wl. induction (rev new) as [|x l IH]; [apply (w_once s Wl)|].
    inversion_clear n2. cbn. constructor.
    + intros h. apply in_app_or in h. destruct h as [h|h]; [contradiction|]. apply (Hd x); [now left|assumption].
    + apply IH; [assumption|]. intros y Hy. apply Hd. now right.
  - rewrite n1, rev_app_distr, rev_involutive. apply order_app; [apply (w_order s Wl)|].
    intros p x q E y Hy Hr.
    assert (Hx : In x new) by (rewrite E; apply in_or_app; right; now left).
    destruct (n3 x Hx) as (k1 & k2 & _). apply Hreach in k2. apply V0_in in k2. destruct k2 as [k2 _].
    assert (HyU := proj2 HU x y k2 Hy). assert (Hyl : linked (stat (mods s y)) = true).
    { apply (w_sound s Wl x y k2); [rewrite k1; reflexivity|assumption]. }
    destruct (V0_calm s Wl y) as [(a & _)|[(a & b & _)|(_ & e & a & _)]]; [apply V0_in; auto|..].
    + right. apply (n4 p x q E y Hy a Hr).
    + left. rewrite <- in_rev. now apply (w_ran s Wl).
    + rewrite (n5 x y Hx Hy) in a. discriminate.
Qed.

Theorem imports_well f : length U <= f -> forall l s, (forall m, In m l -> In m U) -> Well s ->
  exists s', imports G f l s = (Ok tt, s') /\ Well s'.
Proof.
  intros Hf. induction l as [|m l IH]; intros s Hl Wl; cbn [imports]; [exists s; auto|].
  assert (HmU : In m U) by (apply Hl; now left). assert (Hl' : forall x, In x l -> In x U) by (intros x Hx; apply Hl; now right).
  assert (Hidle : forall x, stat (mods s x) <> Linking /\ stat (mods s x) <> Evaluating).
  { intros x. destruct (in_dec Nat.eq_dec x U) as [h|h]; [|rewrite (w_idle s Wl x h); split; discriminate].
    destruct (well_stat s x Wl h) as [k|k]; [rewrite k; split; discriminate|].
    destruct (stat (mods s x)); split; try discriminate; intros e; discriminate. }
  pose proof (link_correct G U s m f HU HmU Hf Hidle (fun x Hx => well_stat s x Wl Hx) (w_sound s Wl)) as HL.
  destruct (link G f m s) as [[u|e| |] s1]; try contradiction.
  - destruct HL as (l1 & l2 & l3 & l4 & new & l5 & l6 & l7 & l8 & l9).
    assert (Hreach : forall x, reach rq m x -> In x U) by (intros x Hx; exact (reach_U G U m x HU HmU Hx)).
    assert (Hst : forall x, stat (mods s1 x) = stat (mods s x) \/ (In x U /\ stat (mods s x) = Unlinked /\ stat (mods s1 x) = Linked)).
    { intros x. destruct (in_dec Nat.eq_dec x new) as [h|h].
      - apply l7 in h. destruct h. right. auto.
      - left. apply l2. destruct (stat (mods s x)) eqn:E; try (left; congruence). right. intros k. apply h, l7. auto. }
    assert (Hlog : sta (log s1) = sta (log s)).
    { rewrite l5, sta_app. clear. unfold sta at 1. rewrite <- map_rev. induction (rev new); [reflexivity|assumption]. }
    assert (W1 : Well s1).
    { apply (well_link s s1 Wl Hst l3 Hlog). intros x y Hx Hlx Hy.
      destruct (Hst x) as [h|(_ & h1 & h2)].
      - rewrite h in Hlx. pose proof (w_sound s Wl x y Hx Hlx Hy) as hy. destruct (Hst y) as [k|(_ & _ & k)]; rewrite k; auto.
      - assert (Hr : reach rq m x).
        { destruct (in_dec Nat.eq_dec x new) as [k|k]; [apply l7 in k; apply k|]. rewrite l2 in h2; [congruence|].
          right. intros k'. apply k, l7. auto. }
        assert (Hry : reach rq m y) by (eapply rt_trans; [exact Hr|now apply rt_step]).
        destruct (well_stat s y Wl (Hreach y Hry)) as [k|k].
        + rewrite l1 by assumption. reflexivity.
        + destruct (Hst y) as [k'|(_ & _ & k')]; rewrite k'; auto. }
    assert (Hml : linked (stat (mods s1 m)) = true).
    { destruct (well_stat s m Wl HmU) as [k|k].
      - rewrite l1; [reflexivity|assumption|apply rt_refl].
      - destruct (Hst m) as [k'|(_ & _ & k')]; rewrite k'; auto. }
    destruct (evaluate_correct G (V0 s1) s1 m f) as (r & s2 & E & He).
    + now apply V0_closed.
    + apply V0_in. auto.
    + etransitivity; [|exact Hf]. unfold V0. clear. induction U as [|x l IH]; [auto|]. cbn. destruct (linked _); cbn; lia.
    + intros x Hx. apply V0_in in Hx. apply Htla, Hx.
    + now apply V0_calm.
    + unfold bind. rewrite E. apply IH; [assumption|]. eapply well_eval; [exact W1|exact HmU|exact Hml| |exact He].
      pose proof (evaluate_T G f m s1) as t. rewrite E in t. apply t.
  - destruct HL as (_ & l1 & l2 & l3 & l4 & new & l5).
    apply IH; [assumption|]. apply (well_link s s1 Wl).
    + intros x. destruct (l2 x) as [h|(h1 & h2 & h3 & _)]; [now left|right]. split; [exact (reach_U G U m x HU HmU h3)|auto].
    + assumption.
    + rewrite l5, sta_app. clear. unfold sta at 1. rewrite <- map_rev. induction (rev new); [reflexivity|assumption].
    + intros x y Hx Hlx Hy. destruct (l2 x) as [h|(_ & _ & _ & h)].
      * rewrite h in Hlx. pose proof (w_sound s Wl x y Hx Hlx Hy) as hy. destruct (l2 y) as [k|(_ & k & _)]; rewrite k; auto.
      * apply h. now apply rt_step.
Qed.

Lemma start_well : Well start.
Proof.
  constructor; cbn; auto; try (intros; contradiction); try discriminate.
  - intros x Hx. left. repeat split.
  - constructor.
  - intros [|? ?] x b E; discriminate.
Qed.
End Program.
