(** The depth first search shared by linking and evaluation: the algorithm of
    Tarjan, proved once for both.  [visit] is the common shape; what differs is
    a parameter with a specification. *)

From Coq Require Import ZArith List Bool Arith Lia Relations Sorted.
From Verif Require Import ModModel ModSpec.
Import ListNotations.

Inductive kls := KFresh | KActive | KDone | KErr | KBad.

Section Dfs.
Variable rq : nat -> list nat.
Variable cls : modrec -> kls.
Variable seen : nat -> M unit.
Variable enter : nat -> nat -> M unit.
Variable post : nat -> nat -> M unit.
Variable fin : nat -> M unit.
Variable popall : nat -> M unit.

Definition popif (m : nat) : M unit :=
  d <- read dfs m ;; a <- read anc m ;; if Nat.eqb d a then popall m else ret tt.

Fixpoint visit (f m i : nat) : M nat :=
  fun s =>
  match cls (mods s m) with
  | KDone | KErr => (seen m ;;; ret i) s
  | KActive => ret i s
  | KBad => abort s
  | KFresh =>
      match f with
      | O => nofuel s
      | S f' =>
          (enter m i ;;;
           i' <- requests (visit f') (post m) (rq m) (S i) ;;
           fin m ;;; popif m ;;; ret i') s
      end
  end.

Variable marks : st -> list nat.
Variable J : st -> Prop.
Variable JT : nat -> st -> Prop.
Variable Cause : nat -> nat -> Prop.
Variable U : list nat.
Variable s0 : st.
Variable m0 : nat.

Notation K s x := (cls (mods s x)).
Notation D s x := (dfs (mods s x)).
Notation A s x := (anc (mods s x)).
Notation R := (reach rq).

Definition core (s s' : st) : Prop :=
  (forall x, K s' x = K s x /\ D s' x = D s x /\ A s' x = A s x) /\ stk s' = stk s.

Record Inv (P : st -> Prop) (s : st) (i : nat) (nw : list nat) : Prop := {
  i_J : P s;
  i_bad : forall x, In x U -> K s x <> KBad;
  i_closed : forall x y, In x U -> K s x = KDone -> In y (rq x) -> K s y = KDone;
  i_nodup : NoDup (stk s);
  i_act : forall x, In x U -> (K s x = KActive <-> In x (stk s));
  i_stkU : forall x, In x (stk s) -> In x U;
  i_anc : forall x, In x (stk s) -> A s x <= D s x /\ D s x < i;
  i_sort : StronglySorted (fun a b => D s b < D s a) (stk s);
  i_wit : forall x, In x (stk s) -> exists y, In y (stk s) /\ D s y = A s x /\ R x y;
  i_edge : forall x, In x (stk s) -> In x nw ->
     forall y, In y (rq x) -> K s y = KDone \/ (In y (stk s) /\ A s x <= D s y);
  i_marks : marks s = nw ++ marks s0;
  i_nwd : NoDup nw;
  i_nw : forall x, In x nw -> In x U /\ K s0 x = KFresh /\ K s x <> KFresh /\ R m0 x;
  i_new : forall x, In x U -> K s0 x = KFresh -> K s x = KDone -> In x nw;
  i_old : forall x, In x U -> K s0 x = KFresh \/ K s x = K s0 x;
  i_old2 : forall x, In x U -> K s x = KFresh \/ K s x = KActive -> K s0 x = KFresh;
  i_stkR : forall x, In x (stk s) -> R m0 x;
  i_mR : forall x, In x U -> K s0 x = KFresh -> K s x <> KFresh -> R m0 x;
  i_out : forall x, ~ In x U -> K s x = K s0 x;
  i_order : in_order rq (fun y => K s0 y = KFresh) (rev nw) }.

Definition Low (s : st) (nw : list nat) : Prop :=
  forall x, In x (stk s) -> In x nw -> A s x < D s x.

Definition Path (s : st) (nw : list nat) (m : nat) : Prop :=
  forall x, In x (stk s) -> In x nw \/ R x m.

Definition Keep (s s' : st) : Prop :=
  (forall x, In x (stk s) -> K s' x = K s x /\ D s' x = D s x /\ A s' x = A s x) /\
  (forall x, K s x = KDone -> K s' x = KDone) /\
  (forall x, K s' x = KFresh -> K s x = KFresh).

Definition fresh (l : list nat) (s : st) : nat :=
  length (filter (fun x => match K s x with KFresh => true | _ => false end) l).

Lemma fresh_le l s s' : (forall x, K s' x = KFresh -> K s x = KFresh) -> fresh l s' <= fresh l s.
Proof.
  intros H. unfold fresh. induction l as [|x l IH]; [reflexivity|]. simpl.
  destruct (K s' x) eqn:E; [rewrite (H _ E); simpl; lia|..];
    destruct (K s x); simpl; lia.
Qed.

Lemma fresh_len l s : fresh l s <= length l.
Proof.
  unfold fresh. induction l as [|x l IH]; [reflexivity|]. simpl. destruct (K s x); simpl; lia.
Qed.

Lemma fresh_lt l s s' m : (forall x, K s' x = KFresh -> K s x = KFresh) ->
  In m l -> K s m = KFresh -> K s' m <> KFresh -> fresh l s' < fresh l s.
Proof.
  intros H Hm E E'.
  induction l as [|x l IH]; [destruct Hm|]. destruct Hm as [->|Hm].
  - pose proof (fresh_le l s s' H) as Hle. unfold fresh in *. simpl. rewrite E.
    destruct (K s' m) eqn:Em; [congruence|..]; simpl; lia.
  - specialize (IH Hm). unfold fresh in *. simpl.
    destruct (K s' x) eqn:Ex; [rewrite (H _ Ex); simpl; lia|..]; destruct (K s x); simpl; lia.
Qed.

Lemma sorted_app s (a b : list nat) :
  StronglySorted (fun a b => D s b < D s a) (a ++ b) ->
  forall x y, In x a -> In y b -> D s y < D s x.
Proof.
  induction a as [|z a IH]; [intros _ ? ? []|]. intros H x y Hx Hy.
  inversion H; subst. destruct Hx as [->|Hx].
  - rewrite Forall_forall in H3. apply H3. apply in_or_app. now right.
  - now apply IH.
Qed.

Lemma sorted_tail s (a b : list nat) :
  StronglySorted (fun a b => D s b < D s a) (a ++ b) -> StronglySorted (fun a b => D s b < D s a) b.
Proof. induction a; [auto|]. intros H. inversion H; subst. auto. Qed.

Lemma sorted_ext s s' (l : list nat) : (forall x, In x l -> D s' x = D s x) ->
  StronglySorted (fun a b => D s b < D s a) l -> StronglySorted (fun a b => D s' b < D s' a) l.
Proof.
  intros H. induction 1 as [|x l Hs IH Hf]; constructor.
  - apply IH. intros y Hy. apply H. now right.
  - rewrite Forall_forall in *. intros y Hy. rewrite (H x), (H y); [|now right|now left]. now apply Hf.
Qed.

Lemma R_trans a b c : R a b -> R b c -> R a c.
Proof. apply rt_trans. Qed.
Lemma R_step a b : In b (rq a) -> R a b.
Proof. intros H. now apply rt_step. Qed.
Lemma R_refl a : R a a.
Proof. apply rt_refl. Qed.

Definition PostT (m : nat) (s s' : st) (e : nat) : Prop :=
  exists i' nw', Inv (JT e) s' i' nw' /\ Keep s s' /\
    (exists seg, stk s' = seg ++ stk s /\ (K s m = KFresh -> In m seg)) /\
    exists x, R m x /\ Cause x e.

Definition Post (m : nat) (s : st) (nw : list nat) (i : nat) (s' : st) (i' : nat) : Prop :=
  i <= i' /\ exists nw', Inv J s' i' nw' /\ Low s' nw' /\ Keep s s' /\ (forall x, In x nw -> In x nw') /\
    (forall x, In x (stk s) -> In x nw' -> In x nw) /\
    exists seg, stk s' = seg ++ stk s /\
      (forall x, In x seg -> In x nw' /\ R m x /\ i <= D s' x) /\
      ((K s' m = KDone /\ seg = []) \/ (In m (stk s) /\ seg = []) \/
       (In m seg /\ forall x, In x seg -> A s' m <= A s' x)).

Definition good (m : nat) (s : st) (nw : list nat) (i : nat) (r : res nat * st) : Prop :=
  match r with
  | (Ok i', s') => Post m s nw i s' i'
  | (Thrown e, s') => PostT m s s' e
  | _ => False
  end.

(** The state inside the call for [m], with the requests [dn] done. *)
Record Frame (m : nat) (s : st) (i : nat) (nw : list nat) (dn : list nat) (s' : st) (i' : nat) (nw' : list nat) : Prop := {
  f_i : S i <= i';
  f_inv : Inv J s' i' nw';
  f_low : Low s' nw';
  f_keep : Keep s s';
  f_nw : forall x, In x nw -> In x nw';
  f_nw2 : forall x, In x (stk s) -> In x nw' -> In x nw;
  f_m : ~ In m nw';
  f_seg : exists seg, stk s' = seg ++ m :: stk s /\
     forall x, In x seg -> In x nw' /\ R m x /\ S i <= D s' x /\ A s' m <= A s' x;
  f_dfs : D s' m = i;
  f_dn : forall y, In y dn -> K s' y = KDone \/ (In y (stk s') /\ A s' m <= D s' y) }.

Lemma keep_trans s s1 s2 : (exists l, stk s1 = l ++ stk s) -> Keep s s1 -> Keep s1 s2 -> Keep s s2.
Proof.
  intros [l Hl] (a1 & b1 & c1) (a2 & b2 & c2). split; [|split].
  - intros x Hx. destruct (a1 _ Hx) as (p & q & r).
    destruct (a2 x) as (p' & q' & r'); [rewrite Hl; apply in_or_app; now right|].
    repeat split; congruence.
  - auto.
  - auto.
Qed.

Lemma keep_core s s' : core s s' -> Keep s s'.
Proof.
  intros [H _]. split; [|split]; intros x Hx.
  - apply H.
  - destruct (H x) as (-> & _). exact Hx.
  - destruct (H x) as (<- & _). exact Hx.
Qed.

Lemma inv_core (P Q : st -> Prop) s s' i nw : core s s' -> marks s' = marks s -> Q s' -> Inv P s i nw -> Inv Q s' i nw.
Proof.
  intros [H Hs] Hm HJ I. destruct I.
  assert (HK : forall x, K s' x = K s x) by (intros; apply H).
  assert (HD : forall x, D s' x = D s x) by (intros; apply H).
  assert (HA : forall x, A s' x = A s x) by (intros; apply H).
  constructor; try rewrite Hs; try rewrite Hm; auto.
  - intros x. rewrite HK. auto.
  - intros x y. rewrite !HK. eauto.
  - intros x. rewrite HK. auto.
  - intros x Hx. rewrite HD, HA. auto.
  - eapply sorted_ext; [|eassumption]. intros; apply HD.
  - intros x Hx. destruct (i_wit0 x Hx) as (y & Hy & e1 & e2). exists y. rewrite HD, HA. auto.
  - intros x Hx Hn y Hy. rewrite HK, HD, HA. eauto.
  - intros x Hx. rewrite HK. auto.
  - intros x. rewrite HK. auto.
  - intros x. rewrite HK. auto.
  - intros x. rewrite HK. auto.
  - intros x. rewrite HK. auto.
  - intros x. rewrite HK. auto.
Qed.
Lemma in_order_snoc due l m : in_order rq due l ->
  (forall y, In y (rq m) -> due y -> ~ R y m -> In y l) -> in_order rq due (l ++ [m]).
Proof.
  intros H Hm a x b E y Hy Hd Hr. destruct b as [|z b _] using rev_ind.
  - apply app_inj_tail in E. destruct E as [<- ->]. auto.
  - assert (E2 : l ++ [m] = (a ++ x :: b) ++ [z]) by (rewrite E, <- app_assoc; reflexivity).
    apply app_inj_tail in E2. destruct E2 as [E2 _]. apply (H _ _ _ E2 y Hy Hd Hr).
Qed.

Lemma inv_enter s s1 i nw m : Inv J s i nw -> K s m = KFresh -> In m U -> R m0 m ->
  K s1 m = KActive -> D s1 m = i -> A s1 m = i -> stk s1 = m :: stk s -> marks s1 = marks s -> J s1 ->
  (forall x, x <> m -> K s1 x = K s x /\ D s1 x = D s x /\ A s1 x = A s x) ->
  Inv J s1 (S i) nw.
Proof.
  intros I Hf HmU HR k1 d1 a1 Hs Hm HJ Ho. destruct I.
  assert (Hns : ~ In m (stk s)). { intros Hin. apply i_act0 in Hin; [congruence|assumption]. }
  assert (Hne : forall x, In x (stk s) -> x <> m) by (intros x Hx ->; auto).
  assert (HK : forall x, x <> m -> K s1 x = K s x) by (intros; now apply Ho).
  assert (HD : forall x, x <> m -> D s1 x = D s x) by (intros; now apply Ho).
  assert (HA : forall x, x <> m -> A s1 x = A s x) by (intros; now apply Ho).
  assert (Hdone : forall x, K s x = KDone -> K s1 x = KDone).
  { intros x Hx. rewrite HK; [assumption|]. intros ->. congruence. }
  constructor.
  - assumption.
  - intros x Hx. destruct (Nat.eq_dec x m) as [->|n]; [congruence|]. rewrite HK by assumption. auto.
  - intros x y Hx Hd Hy. destruct (Nat.eq_dec x m) as [->|n]; [congruence|]. rewrite HK in Hd by assumption.
    apply Hdone. eauto.
  - rewrite Hs. now constructor.
  - intros x Hx. rewrite Hs. destruct (Nat.eq_dec x m) as [->|n].
    + rewrite k1. split; [now left|reflexivity].
    + rewrite HK by assumption. rewrite i_act0 by assumption. simpl. split; [now right|].
      intros [e|e]; [congruence|assumption].
  - intros x. rewrite Hs. intros [<-|Hx]; auto.
  - intros x. rewrite Hs. intros [<-|Hx]; [lia|].
    rewrite HD, HA by auto. destruct (i_anc0 x Hx). lia.
  - rewrite Hs. constructor.
    + eapply sorted_ext; [|eassumption]. intros; apply HD; auto.
    + rewrite Forall_forall. intros x Hx. rewrite HD by auto. rewrite d1. now apply i_anc0.
  - intros x. rewrite Hs. intros [<-|Hx].
    + exists m. split; [now left|]. split; [congruence|apply R_refl].
    + destruct (i_wit0 x Hx) as (y & Hy & e1 & e2). exists y. split; [now right|].
      rewrite HD, HA by auto. auto.
  - intros x. rewrite Hs. intros Hx Hn y Hy.
    assert (x <> m). { intros ->. apply i_nw0 in Hn. intuition. }
    destruct Hx as [e|Hx]; [congruence|].
    destruct (i_edge0 x Hx Hn y Hy) as [e|[e1 e2]]; [left; auto|].
    right. split; [now right|]. rewrite HD, HA by auto. assumption.
  - now rewrite Hm.
  - assumption.
  - intros x Hx. destruct (i_nw0 x Hx) as (p & q & r & u).
    assert (x <> m) by (intros ->; auto). rewrite HK by assumption. auto.
  - intros x Hx Hx0 Hd. destruct (Nat.eq_dec x m) as [->|n]; [congruence|]. rewrite HK in Hd by assumption. auto.
  - intros x Hx. destruct (Nat.eq_dec x m) as [->|n]; [left; auto|]. rewrite HK by assumption. auto.
  - intros x Hx. destruct (Nat.eq_dec x m) as [->|n]; [auto|]. rewrite HK by assumption. auto.
  - intros x. rewrite Hs. intros [<-|Hx]; auto.
  - intros x Hx Hx0. destruct (Nat.eq_dec x m) as [->|n]; [auto|]. rewrite HK by assumption. auto.
  - intros x Hx. rewrite HK; [auto|]. intros ->. auto.
  - assumption.
Qed.

Lemma inv_post s s' i nw m : Inv J s i nw -> In m (stk s) -> ~ In m nw -> J s' -> marks s' = marks s -> stk s' = stk s ->
  (forall x, K s' x = K s x /\ D s' x = D s x /\ (x <> m -> A s' x = A s x)) ->
  A s' m <= A s m -> (exists y, In y (stk s) /\ D s y = A s' m /\ R m y) ->
  Inv J s' i nw.
Proof.
  intros I Hin Hnn HJ Hm Hs H Hle Hw. destruct I.
  assert (HK : forall x, K s' x = K s x) by (intros; apply H).
  assert (HD : forall x, D s' x = D s x) by (intros; apply H).
  assert (HA : forall x, x <> m -> A s' x = A s x) by (intros; now apply H).
  constructor; try rewrite Hs; try rewrite Hm; auto.
  - intros x. rewrite HK. auto.
  - intros x y. rewrite !HK. eauto.
  - intros x. rewrite HK. auto.
  - intros x Hx. rewrite HD. destruct (i_anc0 x Hx) as [u v]. destruct (Nat.eq_dec x m) as [->|n]; [lia|].
    rewrite HA by assumption. lia.
  - eapply sorted_ext; [|eassumption]. intros; apply HD.
  - intros x Hx. destruct (Nat.eq_dec x m) as [->|n].
    + destruct Hw as (y & p & q & r). exists y. rewrite HD. auto.
    + destruct (i_wit0 x Hx) as (y & Hy & e1 & e2). exists y. rewrite HD, HA by assumption. auto.
  - intros x Hx Hn y Hy. assert (x <> m) by (intros ->; auto). rewrite HK, HD, HA by assumption. eauto.
  - intros x Hx. rewrite HK. auto.
  - intros x. rewrite HK. auto.
  - intros x. rewrite HK. auto.
  - intros x. rewrite HK. auto.
  - intros x. rewrite HK. auto.
  - intros x. rewrite HK. auto.
Qed.

Lemma inv_fin (Q : st -> Prop) s s' i nw m : Inv J s i nw -> In m (stk s) -> ~ In m nw -> Q s' -> marks s' = m :: marks s ->
  core s s' -> Path s nw m ->
  (forall y, In y (rq m) -> K s y = KDone \/ (In y (stk s) /\ A s m <= D s y)) ->
  (forall y, In y (rq m) -> In y U) ->
  Inv Q s' i (m :: nw).
Proof.
  intros I Hin Hnn HJ Hm [H Hs] HP He HyU. destruct I.
  assert (HK : forall x, K s' x = K s x) by (intros; apply H).
  assert (HD : forall x, D s' x = D s x) by (intros; apply H).
  assert (HA : forall x, A s' x = A s x) by (intros; apply H).
  assert (HmU : In m U) by auto.
  assert (Hact : K s m = KActive) by now apply i_act0.
  constructor; try rewrite Hs; auto.
  - intros x. rewrite HK. auto.
  - intros x y. rewrite !HK. eauto.
  - intros x. rewrite HK. auto.
  - intros x Hx. rewrite HD, HA. auto.
  - eapply sorted_ext; [|eassumption]. intros; apply HD.
  - intros x Hx. destruct (i_wit0 x Hx) as (y & Hy & e1 & e2). exists y. rewrite HD, HA. auto.
  - intros x Hx Hn y Hy. rewrite HK, HD, HA. destruct Hn as [<-|Hn]; eauto.
  - rewrite Hm, i_marks0. reflexivity.
  - now constructor.
  - intros x [<-|Hx]; rewrite HK; [|auto].
    split; [assumption|]. split; [apply i_old3; auto|]. split; [congruence|auto].
  - intros x Hx Hx0. rewrite HK. intros Hd. right. auto.
  - intros x. rewrite HK. auto.
  - intros x. rewrite HK. auto.
  - intros x. rewrite HK. auto.
  - intros x. rewrite HK. auto.
  - simpl. apply in_order_snoc; [assumption|]. intros y Hy Hd Hr. apply -> in_rev.
    destruct (He y Hy) as [e|[e _]]; [apply i_new0; auto|].
    destruct (HP y e); [assumption|contradiction].
Qed.

Lemma inv_pop s s' i nw m seg rest : Inv J s i nw -> stk s = seg ++ m :: rest ->
  stk s' = rest -> marks s' = marks s -> J s' ->
  (forall x, (In x (seg ++ [m]) -> K s' x = KDone) /\ (~ In x (seg ++ [m]) -> K s' x = K s x) /\
              D s' x = D s x /\ A s' x = A s x) ->
  (forall x, In x (seg ++ [m]) -> In x nw /\ A s m <= A s x) -> A s m = D s m ->
  Inv J s' i nw.
Proof.
  intros I Hs Hs' Hm HJ H Hseg Hroot. destruct I.
  assert (Hs2 : stk s = (seg ++ [m]) ++ rest) by (rewrite Hs, <- app_assoc; reflexivity).
  set (pp := seg ++ [m]) in *.
  assert (HD : forall x, D s' x = D s x) by (intros; apply H).
  assert (HA : forall x, A s' x = A s x) by (intros; apply H).
  assert (Hdis : forall x, In x pp -> ~ In x rest).
  { intros x Hx Hr. rewrite Hs2 in i_nodup0. clear - i_nodup0 Hx Hr.
    induction pp as [|z pp IH]; [auto|]. inversion i_nodup0; subst. destruct Hx as [->|Hx]; [|auto].
    apply H1. apply in_or_app. now right. }
  assert (Hstk : forall x, In x (stk s) <-> In x pp \/ In x rest) by (intros; rewrite Hs2; apply in_app_iff).
  assert (Hpact : forall x, In x pp -> K s x = KActive).
  { intros x Hx. apply i_act0; [apply i_stkU0|]; apply Hstk; auto. }
  assert (Hm_pp : In m pp) by (apply in_or_app; right; now left).
  assert (Hbig : forall y, In y (stk s) -> D s m <= D s y -> In y pp).
  { intros y Hy Hle. apply Hstk in Hy. destruct Hy as [Hy|Hy]; [assumption|].
    rewrite Hs2 in i_sort0. pose proof (sorted_app _ _ _ i_sort0 m y Hm_pp Hy). lia. }
  assert (Hsmall : forall y z, In y (stk s) -> In z rest -> D s y <= D s z -> In y rest).
  { intros y z Hy Hz Hle. apply Hstk in Hy. destruct Hy as [Hy|Hy]; [|assumption].
    rewrite Hs2 in i_sort0. pose proof (sorted_app _ _ _ i_sort0 y z Hy Hz). lia. }
  assert (Hdone : forall x, K s x = KDone -> K s' x = KDone).
  { intros x Hx. destruct (in_dec Nat.eq_dec x pp) as [Hi|Hi]; [now apply H|].
    destruct (H x) as (_ & -> & _); assumption. }
  assert (HKn : forall x, ~ In x pp -> K s' x = K s x) by (intros; now apply H).
  assert (HKy : forall x, In x pp -> K s' x = KDone) by (intros; now apply H).
  constructor; try rewrite Hs'; try rewrite Hm; auto.
  - intros x Hx. destruct (in_dec Nat.eq_dec x pp) as [Hi|Hi]; [rewrite HKy; congruence|rewrite HKn; auto].
  - intros x y Hx Hd Hy. destruct (in_dec Nat.eq_dec x pp) as [Hi|Hi].
    + destruct (Hseg x Hi) as [Hn Ha].
      destruct (i_edge0 x) with (y := y) as [e|[e1 e2]]; auto.
      * apply Hstk. now left.
      * apply HKy, Hbig; [assumption|lia].
    + rewrite HKn in Hd by assumption. apply Hdone. eauto.
  - rewrite Hs2 in i_nodup0. clear - i_nodup0. induction pp; [assumption|].
    inversion i_nodup0; subst. auto.
  - intros x Hx. destruct (in_dec Nat.eq_dec x pp) as [Hi|Hi].
    + rewrite HKy by assumption. split; [discriminate|]. intros Hr. now apply Hdis in Hi.
    + rewrite HKn by assumption. rewrite i_act0 by assumption. rewrite Hstk. tauto.
  - intros x Hx. apply i_stkU0, Hstk. now right.
  - intros x Hx. rewrite HD, HA. apply i_anc0, Hstk. now right.
  - eapply sorted_ext; [intros; apply HD|]. rewrite Hs2 in i_sort0. eapply sorted_tail; eassumption.
  - intros x Hx. destruct (i_wit0 x) as (y & Hy & e1 & e2); [apply Hstk; now right|].
    exists y. rewrite HD, HA. split; [|auto]. apply (Hsmall y x); auto. rewrite e1. apply i_anc0, Hstk. now right.
  - intros x Hx Hn y Hy. destruct (i_edge0 x) with (y := y) as [e|[e1 e2]]; auto.
    + apply Hstk. now right.
    + apply Hstk in e1. destruct e1 as [e1|e1]; [left; auto|]. right. rewrite HD, HA. auto.
  - intros x Hx. destruct (i_nw0 x Hx) as (p & q & r & u). repeat split; auto.
    destruct (in_dec Nat.eq_dec x pp) as [Hi|Hi]; [rewrite HKy by assumption; discriminate|now rewrite HKn].
  - intros x Hx Hx0 Hd. destruct (in_dec Nat.eq_dec x pp) as [Hi|Hi]; [now apply Hseg|].
    rewrite HKn in Hd by assumption. auto.
  - intros x Hx. destruct (in_dec Nat.eq_dec x pp) as [Hi|Hi]; [left; apply i_old3; auto|].
    rewrite HKn by assumption. auto.
  - intros x Hx. destruct (in_dec Nat.eq_dec x pp) as [Hi|Hi]; [rewrite HKy by assumption; intros [|]; discriminate|].
    rewrite HKn by assumption. auto.
  - intros x Hx. apply i_stkR0, Hstk. now right.
  - intros x Hx Hx0 Hd. destruct (in_dec Nat.eq_dec x pp) as [Hi|Hi]; [apply i_stkR0, Hstk; now left|].
    rewrite HKn in Hd by assumption. auto.
  - intros x Hx. rewrite HKn; [auto|]. intros Hi. apply Hx, i_stkU0, Hstk. now left.
Qed.

Hypothesis HU : closed rq U.

Hypothesis H_JT : forall e s, J s -> JT e s.

Hypothesis H_seen : forall s m, J s -> In m U -> K s m = KDone -> seen m s = (Ok tt, s).

Hypothesis H_err : forall s m, J s -> In m U -> K s m = KErr -> exists e, seen m s = (Thrown e, s) /\ Cause m e.

Hypothesis H_enter : forall s m i, J s -> In m U -> K s m = KFresh ->
  exists s', enter m i s = (Ok tt, s') /\ K s' m = KActive /\ D s' m = i /\ A s' m = i /\
    stk s' = m :: stk s /\ marks s' = marks s /\ J s' /\
    forall x, x <> m -> K s' x = K s x /\ D s' x = D s x /\ A s' x = A s x.

Hypothesis H_post : forall s m r, J s -> In m U -> In r U -> K s m = KActive -> K s r = KActive \/ K s r = KDone ->
  (exists s', post m r s = (Ok tt, s') /\ J s' /\ marks s' = marks s /\ stk s' = stk s /\
     (forall x, K s' x = K s x /\ D s' x = D s x /\ (x <> m -> A s' x = A s x)) /\
     A s' m = (match K s r with KActive => Nat.min (A s m) (A s r) | _ => A s m end)) \/
  (exists e s', post m r s = (Thrown e, s') /\ JT e s' /\ core s s' /\ marks s' = marks s /\ Cause r e).

Hypothesis H_fin : forall s m, J s -> In m U -> K s m = KActive -> K s0 m = KFresh ->
  exists s', ((fin m s = (Ok tt, s') /\ J s') \/ exists e, fin m s = (Thrown e, s') /\ Cause m e /\ JT e s') /\
    core s s' /\ marks s' = m :: marks s.

Hypothesis H_pop : forall s m seg rest, J s -> stk s = seg ++ m :: rest -> ~ In m seg ->
  (forall x, In x (seg ++ [m]) -> In x U /\ K s x = KActive /\ K s0 x = KFresh /\ cyclic rq m x) ->
  exists s', popall m s = (Ok tt, s') /\ stk s' = rest /\ marks s' = marks s /\ J s' /\
    forall x, (In x (seg ++ [m]) -> K s' x = KDone) /\ (~ In x (seg ++ [m]) -> K s' x = K s x) /\
              D s' x = D s x /\ A s' x = A s x.

Lemma reqU m y : In m U -> In y (rq m) -> In y U.
Proof. destruct HU as [_ H]. eauto. Qed.

Lemma keep_fresh s s' : Keep s s' -> fresh U s' <= fresh U s.
Proof. intros (_ & _ & H). now apply fresh_le. Qed.

Definition visits (f : nat) : Prop := forall m i s nw,
  Inv J s i nw -> Low s nw -> In m U -> R m0 m -> Path s nw m -> fresh U s <= f ->
  good m s nw i (visit f m i s).

Lemma loop_ok f m s i nw : visits f -> In m U -> R m0 m -> Path s nw m ->
  K s m = KFresh ->
  forall l dn s' i' nw', (forall r, In r l -> In r (rq m)) ->
    Frame m s i nw dn s' i' nw' -> fresh U s' <= f ->
    match requests (visit f) (post m) l i' s' with
    | (Ok i2, s2) => exists nw2, Frame m s i nw (rev l ++ dn) s2 i2 nw2
    | (Thrown e, s2) => PostT m s s2 e
    | _ => False
    end.
Proof.
  intros HV HmU HmR HP Hfm. induction l as [|r l IH]; intros dn s' i' nw' Hl F Hfu.
  { simpl. eauto. }
  assert (Hrq : In r (rq m)) by (apply Hl; now left).
  assert (HrU : In r U) by (eapply reqU; eassumption).
  assert (HmrR : R m r) by now apply R_step.
  destruct F as [fi finv flow fkeep fnw fnw2 fm fseg fdfs fdn].
  destruct fseg as (seg & Hstk & Hseg).
  assert (Hmstk : In m (stk s')) by (rewrite Hstk; apply in_or_app; right; now left).
  assert (Hsub : exists l, stk s' = l ++ stk s) by (exists (seg ++ [m]); rewrite Hstk, <- app_assoc; reflexivity).
  assert (HPr : Path s' nw' r).
  { intros x Hx. rewrite Hstk in Hx. apply in_app_or in Hx. destruct Hx as [Hx|[<-|Hx]].
    - left. now apply Hseg.
    - right. assumption.
    - destruct (HP x Hx) as [h|h]; [left; auto|right; eapply R_trans; eassumption]. }
  pose proof (HV r i' s' nw' finv flow HrU ltac:(eapply R_trans; eassumption) HPr Hfu) as G.
  cbn [requests]. unfold bind at 1.
  destruct (visit f r i' s') as [[i1|e| |] s1] eqn:EV; cbn [good] in G; try contradiction.
  2:{ destruct G as (i2 & nw2 & g1 & g2 & (sg & g3 & g4) & x & g5 & g6).
      exists i2, nw2. split; [assumption|]. split; [eapply keep_trans; eassumption|]. split.
      - exists (sg ++ seg ++ [m]). rewrite g3, Hstk. rewrite <- !app_assoc. split; [reflexivity|].
        intros _. apply in_or_app. right. apply in_or_app. right. now left.
      - exists x. split; [eapply R_trans; eassumption|assumption]. }
  destruct G as (gi & nw1 & ginv & glow & gkeep & gnw & gnw2 & sg & gstk & gsg & gcase).
  destruct gkeep as (k1 & k2 & k3).
  assert (Kept : forall x, In x (stk s') -> K s1 x = K s' x /\ D s1 x = D s' x /\ A s1 x = A s' x) by exact k1.
  assert (Hm1 : In m (stk s1)) by (rewrite gstk; apply in_or_app; now right).
  assert (Hmact : K s1 m = KActive) by (apply (i_act _ _ _ _ ginv); assumption).
  assert (Hsubstk : forall x, In x (stk s') -> In x (stk s1)) by (intros; rewrite gstk; apply in_or_app; now right).
  assert (Hr1 : K s1 r = KActive \/ K s1 r = KDone).
  { destruct gcase as [[e _]|[[e _]|[e _]]]; [now right|left|left]; apply (i_act _ _ _ _ ginv); auto.
    rewrite gstk. apply in_or_app. now left. }
  assert (Hmnw1 : ~ In m nw1) by (intros h; apply fm; auto).
  unfold bind at 1.
  destruct (H_post s1 m r (i_J _ _ _ _ ginv) HmU HrU Hmact Hr1) as [(s2 & E2 & J2 & mk2 & st2 & o2 & a2)|(e & s2 & E2 & J2 & c2 & mk2 & ca)].
  2:{ rewrite E2. exists i1, nw1. split; [eapply inv_core; eassumption|]. split.
      - apply keep_trans with s'; [assumption|assumption|]. eapply keep_trans with s1; [eauto|split; [|split]; assumption|].
        now apply keep_core.
      - split.
        + destruct c2 as [_ c2]. exists (sg ++ seg ++ [m]). rewrite c2, gstk, Hstk. rewrite <- !app_assoc. split; [reflexivity|].
          intros _. apply in_or_app. right. apply in_or_app. right. now left.
        + exists r. auto. }
  rewrite E2.
  assert (HK2 : forall x, K s2 x = K s1 x) by (intros; apply o2).
  assert (HD2 : forall x, D s2 x = D s1 x) by (intros; apply o2).
  assert (HA2 : forall x, x <> m -> A s2 x = A s1 x) by (intros; now apply o2).
  assert (Hle : A s2 m <= A s1 m) by (rewrite a2; destruct (K s1 r); lia).
  assert (Hract : K s1 r = KActive -> In r (stk s1)) by (intros; now apply (i_act _ _ _ _ ginv)).
  assert (Hler : K s1 r = KActive -> A s2 m <= A s1 r) by (intros e; rewrite a2, e; lia).
  assert (I2 : Inv J s2 i1 nw1).
  { apply (inv_post s1 s2 i1 nw1 m); try assumption.
    rewrite a2. destruct (K s1 r) eqn:Er; try apply (i_wit _ _ _ _ ginv m Hm1).
    destruct (Nat.le_ge_cases (A s1 m) (A s1 r)).
    - rewrite Nat.min_l by assumption. apply (i_wit _ _ _ _ ginv m Hm1).
    - rewrite Nat.min_r by assumption.
      destruct (i_wit _ _ _ _ ginv r (Hract eq_refl)) as (y & p & q & u).
      exists y. split; [assumption|]. split; [assumption|]. eapply R_trans; eassumption. }
  assert (kk : Keep s' s1) by (split; [|split]; assumption).
  assert (K12 : Keep s s2).
  { destruct (keep_trans s s' s1 Hsub fkeep kk) as (u1 & u2 & u3).
    split; [|split].
    - intros x Hx. rewrite HK2, HD2. assert (x <> m).
      { intros ->. pose proof (i_nodup _ _ _ _ finv) as Hd. rewrite Hstk in Hd.
        apply NoDup_remove_2 in Hd. apply Hd. apply in_or_app. now right. }
      rewrite HA2 by assumption. auto.
    - intros x Hx. rewrite HK2. auto.
    - intros x Hx. rewrite HK2 in Hx. auto. }
  assert (Hxm : forall x, In x (sg ++ seg) -> x <> m).
  { intros x Hx ->. pose proof (i_nodup _ _ _ _ ginv) as Hd. rewrite gstk, Hstk in Hd.
    rewrite app_assoc in Hd. apply NoDup_remove_2 in Hd. apply Hd. apply in_or_app. now left. }
  assert (F2 : Frame m s i nw (r :: dn) s2 i1 nw1).
  { constructor.
    - lia.
    - assumption.
    - intros x Hx Hn. rewrite HD2. assert (x <> m) by (intros ->; auto). rewrite HA2 by assumption.
      apply glow; [now rewrite <- st2|assumption].
    - assumption.
    - auto.
    - intros x Hx Hn. apply fnw2; [assumption|]. apply gnw2; [|assumption].
      rewrite Hstk. apply in_or_app. right. now right.
    - assumption.
    - exists (sg ++ seg). split; [rewrite st2, gstk, Hstk, <- app_assoc; reflexivity|].
      intros x Hx. pose proof (Hxm x Hx) as hne. rewrite HD2, (HA2 x hne).
      apply in_app_or in Hx. destruct Hx as [Hx|Hx].
      + destruct (gsg x Hx) as (p & q & u). split; [assumption|]. split; [eapply R_trans; eassumption|].
        split; [lia|]. destruct gcase as [[_ e]|[[_ e]|[e1 e2]]]; [subst sg; destruct Hx..|].
        pose proof (e2 x Hx). assert (K s1 r = KActive).
        { apply (i_act _ _ _ _ ginv); [assumption|]. rewrite gstk. apply in_or_app. now left. }
        pose proof (Hler H0). lia.
      + destruct (Hseg x Hx) as (p & q & u & w). split; [auto|]. split; [assumption|].
        destruct (Kept x) as (v1 & v2 & v3); [rewrite Hstk; apply in_or_app; now left|].
        destruct (Kept m Hmstk) as (v4 & v5 & v6). rewrite v2, v3. split; [assumption|]. lia.
    - rewrite HD2. destruct (Kept m Hmstk) as (_ & -> & _). assumption.
    - intros y [<-|Hy].
      + rewrite HK2. destruct Hr1 as [e|e]; [right|left; assumption].
        rewrite st2. split; [auto|]. rewrite HD2.
        pose proof (Hler e). pose proof (i_anc _ _ _ _ ginv r (Hract e)). lia.
      + rewrite HK2, HD2, st2. destruct (fdn y Hy) as [e|[e1 e2]]; [left; auto|right].
        split; [auto|]. destruct (Kept y e1) as (_ & -> & _). destruct (Kept m Hmstk) as (_ & _ & v6). lia. }
  assert (Hfu2 : fresh U s2 <= f).
  { assert (fresh U s2 <= fresh U s').
    { apply fresh_le. intros x Hx. rewrite HK2 in Hx. auto. }
    lia. }
  specialize (IH (r :: dn) s2 i1 nw1 ltac:(intros; apply Hl; now right) F2 Hfu2).
  destruct (requests (visit f) (post m) l i1 s2) as [[i3|e| |] s3]; try contradiction; [|exact IH].
  simpl. rewrite <- app_assoc. exact IH.
Qed.

Lemma visit_ok f : visits f.
Proof.
  induction f as [|f IH]; intros m i s nw I L HmU HmR HP Hfu.
  all: cbn [visit]; destruct (K s m) eqn:Em.
  all: try (exfalso; now apply (i_bad _ _ _ _ I m HmU)).
  all: try (unfold ret; cbn [good]; split; [lia|]; exists nw; split; [assumption|]; split; [assumption|];
            split; [split; [|split]; auto|]; split; [auto|]; split; [auto|]; exists [];
            split; [reflexivity|]; split; [intros x []|]; right; left; split; [now apply (i_act _ _ _ _ I)|reflexivity]).
  all: try (unfold bind; rewrite (H_seen s m (i_J _ _ _ _ I) HmU Em); cbn [good];
            split; [lia|]; exists nw; split; [assumption|]; split; [assumption|];
            split; [split; [|split]; auto|]; split; [auto|]; split; [auto|]; exists [];
            split; [reflexivity|]; split; [intros x []|]; left; auto).
  all: try (unfold bind; destruct (H_err s m (i_J _ _ _ _ I) HmU Em) as (e & -> & Hc); cbn [good];
            exists i, nw; split; [eapply inv_core; [split; auto|reflexivity|apply H_JT, (i_J _ _ _ _ I)|exact I]|];
            split; [split; [|split]; auto|]; split;
            [exists []; split; [reflexivity|congruence]|exists m; split; [apply R_refl|assumption]]).
  { pose proof (fresh_lt U s (St (fun x => Mod Evaluated 0 0 0 0 None None [] None false) [] 0 []) m).
    exfalso. unfold fresh in Hfu.
    assert (In m (filter (fun x => match K s x with KFresh => true | _ => false end) U)).
    { apply filter_In. split; [assumption|]. now rewrite Em. }
    destruct (filter (fun x => match K s x with KFresh => true | _ => false end) U); [contradiction|simpl in Hfu; lia]. }
  destruct (H_enter s m i (i_J _ _ _ _ I) HmU Em) as (s1 & E1 & k1 & d1 & a1 & st1 & mk1 & J1 & o1).
  unfold bind at 1. rewrite E1.
  pose proof (inv_enter s s1 i nw m I Em HmU HmR k1 d1 a1 st1 mk1 J1 o1) as I1.
  assert (Hmnw : ~ In m nw). { intros h. apply (i_nw _ _ _ _ I) in h. intuition. }
  assert (Hns : ~ In m (stk s)). { intros h. apply (i_act _ _ _ _ I) in h; [congruence|assumption]. }
  assert (K1 : Keep s s1).
  { split; [|split].
    - intros x Hx. apply o1. intros ->. auto.
    - intros x Hx. destruct (Nat.eq_dec x m) as [->|n]; [congruence|]. destruct (o1 x n) as (-> & _). assumption.
    - intros x Hx. destruct (Nat.eq_dec x m) as [->|n]; [congruence|]. destruct (o1 x n) as (<- & _). assumption. }
  assert (F1 : Frame m s i nw [] s1 (S i) nw).
  { constructor; auto.
    - intros x Hx Hn. assert (x <> m) by (intros ->; auto). destruct (o1 x H) as (_ & -> & ->).
      apply L; [|assumption]. rewrite st1 in Hx. destruct Hx as [e|e]; [congruence|assumption].
    - exists []. split; [assumption|]. intros x [].
    - intros y []. }
  assert (Hfu1 : fresh U s1 <= f).
  { assert (fresh U s1 < fresh U s); [|lia]. apply (fresh_lt U s s1 m); auto; [apply K1|congruence]. }
  pose proof (loop_ok f m s i nw IH HmU HmR HP Em (rq m) [] s1 (S i) nw ltac:(auto) F1 Hfu1) as HL.
  unfold bind at 1.
  destruct (requests (visit f) (post m) (rq m) (S i) s1) as [[i2|e| |] s2]; try contradiction; [|exact HL].
  destruct HL as (nw2 & F2). destruct F2 as [fi finv flow fkeep fnw fnw2 fm fseg fdfs fdn].
  destruct fseg as (seg & Hstk & Hseg).
  assert (Hdn : forall y, In y (rq m) -> K s2 y = KDone \/ (In y (stk s2) /\ A s2 m <= D s2 y)).
  { intros y Hy. apply fdn. apply in_or_app. left. now apply -> in_rev. }
  assert (Hmstk : In m (stk s2)) by (rewrite Hstk; apply in_or_app; right; now left).
  assert (Hmact : K s2 m = KActive) by now apply (i_act _ _ _ _ finv).
  assert (Hm0f : K s0 m = KFresh) by (apply (i_old2 _ _ _ _ finv); auto).
  assert (HP2 : Path s2 nw2 m).
  { intros x Hx. rewrite Hstk in Hx. apply in_app_or in Hx. destruct Hx as [Hx|[<-|Hx]].
    - left. now apply Hseg.
    - right. apply R_refl.
    - destruct (HP x Hx); auto. }
  destruct (H_fin s2 m (i_J _ _ _ _ finv) HmU Hmact Hm0f) as (s3 & E3 & c3 & mk3).
  assert (I3g : forall Q : st -> Prop, Q s3 -> Inv Q s3 i2 (m :: nw2)).
  { intros Q HQ. apply (inv_fin Q s2 s3 i2 nw2 m finv Hmstk fm HQ mk3 c3 HP2 Hdn). intros; eapply reqU; eassumption. }
  pose proof c3 as [o3 st3].
  assert (Hsub2 : exists l, stk s2 = l ++ stk s) by (exists (seg ++ [m]); rewrite Hstk, <- app_assoc; reflexivity).
  assert (K3 : Keep s s3).
  { eapply keep_trans; [exact Hsub2|assumption|now apply keep_core]. }
  unfold bind at 1. destruct E3 as [[E3 J3]|(e & E3 & Hc & J3)]; rewrite E3.
  2:{ exists i2, (m :: nw2). split; [auto|]. split; [assumption|]. split.
      - exists (seg ++ [m]). rewrite st3, Hstk, <- app_assoc. split; [reflexivity|].
        intros _. apply in_or_app. right. now left.
      - exists m. split; [apply R_refl|assumption]. }
  pose proof (I3g J J3) as I3.
  assert (HK3 : forall x, K s3 x = K s2 x) by (intros; apply o3).
  assert (HD3 : forall x, D s3 x = D s2 x) by (intros; apply o3).
  assert (HA3 : forall x, A s3 x = A s2 x) by (intros; apply o3).
  assert (Hstk3 : stk s3 = seg ++ m :: stk s) by congruence.
  assert (Hmseg : ~ In m seg).
  { intros h. apply Hseg in h. intuition. }
  assert (Hlow3 : forall x, In x (stk s3) -> In x (m :: nw2) -> x <> m -> A s3 x < D s3 x).
  { intros x Hx [e|Hn] Hne; [congruence|]. rewrite HA3, HD3. apply flow; [congruence|assumption]. }
  assert (Hsegs : forall x, In x (seg ++ [m]) -> In x (m :: nw2) /\ A s3 m <= A s3 x /\ R m x /\ i <= D s3 x).
  { intros x Hx. rewrite !HA3, HD3. apply in_app_or in Hx. destruct Hx as [Hx|[<-|[]]].
    - destruct (Hseg x Hx) as (p & q & u & w). split; [now right|]. split; [assumption|]. split; [assumption|lia].
    - split; [now left|]. split; [lia|]. split; [apply R_refl|lia]. }
  unfold bind at 1, popif, bind, read. destruct (Nat.eqb (D s3 m) (A s3 m)) eqn:Er.
  - apply Nat.eqb_eq in Er.
    assert (Hup : forall n x, D s3 x < n -> In x seg -> R x m).
    { induction n as [|n IHn]; [lia|]. intros x Hn Hx.
      destruct (Hsegs x) as (p & q & _ & _); [apply in_or_app; now left|].
      assert (Hxs : In x (stk s3)) by (rewrite Hstk3; apply in_or_app; now left).
      assert (Hxm : x <> m) by (intros ->; auto).
      pose proof (Hlow3 x Hxs p Hxm).
      destruct (i_wit _ _ _ _ I3 x Hxs) as (y & Hy & e1 & e2).
      rewrite Hstk3 in Hy. apply in_app_or in Hy. destruct Hy as [Hy|[<-|Hy]].
      - eapply R_trans; [exact e2|]. apply IHn; [lia|assumption].
      - assumption.
      - exfalso. pose proof (i_sort _ _ _ _ I3) as Hso. rewrite Hstk3 in Hso.
        change (seg ++ m :: stk s) with (seg ++ ([m] ++ stk s)) in Hso. rewrite app_assoc in Hso.
        pose proof (sorted_app _ _ _ Hso m y ltac:(apply in_or_app; right; now left) Hy). lia. }
    assert (Hall : forall x, In x (seg ++ [m]) -> In x U /\ K s3 x = KActive /\ K s0 x = KFresh /\ cyclic rq m x).
    { intros x Hx. destruct (Hsegs x Hx) as (p & q & u & w).
      assert (Hxs : In x (stk s3)).
      { rewrite Hstk3. apply in_app_or in Hx. apply in_or_app. destruct Hx as [Hx|[<-|[]]]; [now left|right; now left]. }
      assert (HxU : In x U) by now apply (i_stkU _ _ _ _ I3).
      assert (Hxa : K s3 x = KActive) by now apply (i_act _ _ _ _ I3).
      split; [assumption|]. split; [assumption|]. split; [apply (i_old2 _ _ _ _ I3); auto|].
      split; [assumption|]. apply in_app_or in Hx. destruct Hx as [Hx|[<-|[]]]; [eapply Hup; eauto|apply R_refl]. }
    destruct (H_pop s3 m seg (stk s) J3 Hstk3 Hmseg Hall) as (s4 & E4 & st4 & mk4 & J4 & o4).
    rewrite E4. unfold ret. cbn [good]. split; [lia|]. exists (m :: nw2).
    split.
    { apply (inv_pop s3 s4 i2 (m :: nw2) m seg (stk s)); auto.
      intros x Hx. destruct (Hsegs x Hx) as (p & q & _). auto. }
    assert (Hnp : forall x, In x (stk s) -> ~ In x (seg ++ [m])).
    { intros x Hx Hp. pose proof (i_nodup _ _ _ _ I3) as Hd. rewrite Hstk3 in Hd.
      apply in_app_or in Hp. destruct Hp as [Hp|[<-|[]]].
      - apply in_split in Hp. destruct Hp as (u & v & ->). rewrite <- app_assoc in Hd. simpl in Hd.
        apply NoDup_remove_2 in Hd. apply Hd. apply in_or_app. right. apply in_or_app. right. now right.
      - auto. }
    split.
    { intros x Hx Hn. rewrite st4 in Hx. destruct (o4 x) as (_ & _ & -> & ->).
      apply Hlow3; [rewrite Hstk3; apply in_or_app; right; now right|assumption|].
      intros ->. auto. }
    split.
    { destruct K3 as (u1 & u2 & u3). split; [|split].
      - intros x Hx. destruct (o4 x) as (_ & v & -> & ->). rewrite v by auto. auto.
      - intros x Hx. destruct (o4 x) as (v1 & v2 & _). destruct (in_dec Nat.eq_dec x (seg ++ [m])); [auto|].
        rewrite v2 by assumption. auto.
      - intros x Hx. destruct (o4 x) as (v1 & v2 & _). destruct (in_dec Nat.eq_dec x (seg ++ [m])) as [h|h].
        + rewrite v1 in Hx by assumption. discriminate.
        + rewrite v2 in Hx by assumption. auto. }
    split; [intros x Hx; right; auto|].
    split; [intros x Hx [<-|Hn]; [contradiction|auto]|].
    exists []. split; [assumption|]. split; [intros x []|]. left. split; [|reflexivity].
    apply o4. apply in_or_app. right. now left.
  - apply Nat.eqb_neq in Er. unfold ret. cbn [good]. split; [lia|]. exists (m :: nw2).
    split; [assumption|]. split.
    { intros x Hx Hn. destruct (Nat.eq_dec x m) as [->|n]; [|auto].
      pose proof (i_anc _ _ _ _ I3 m Hx). lia. }
    split; [assumption|]. split; [intros x Hx; right; auto|].
    split; [intros x Hx [<-|Hn]; [contradiction|auto]|].
    exists (seg ++ [m]). split; [rewrite Hstk3, <- app_assoc; reflexivity|]. split.
    { intros x Hx. destruct (Hsegs x Hx) as (p & q & u & w). auto. }
    right. right. split; [apply in_or_app; right; now left|]. intros x Hx. now apply Hsegs.
Qed.

(** The whole search from [m0] with an empty stack. *)
Hypothesis Hm0 : In m0 U.
Hypothesis HJ0 : J s0.
Hypothesis Hstk0 : stk s0 = [].
Hypothesis Hk0 : forall x, In x U -> K s0 x = KFresh \/ K s0 x = KDone \/ K s0 x = KErr.
Hypothesis Hclosed0 : forall x y, In x U -> K s0 x = KDone -> In y (rq x) -> K s0 y = KDone.

Lemma inv0 : Inv J s0 0 [].
Proof.
  constructor; try rewrite Hstk0; auto.
  - intros x Hx e. destruct (Hk0 x Hx) as [|[|]]; congruence.
  - constructor.
  - intros x Hx. destruct (Hk0 x Hx) as [e|[e|e]]; rewrite e; split; try discriminate; intros [].
  - intros x [].
  - intros x [].
  - constructor.
  - intros x [].
  - intros x [].
  - constructor.
  - intros x [].
  - intros x Hx e1 e2. congruence.
  - intros x Hx [e|e]; [assumption|]. destruct (Hk0 x Hx) as [|[|]]; congruence.
  - intros x [].
  - intros x Hx e1 e2. congruence.
  - intros a x b E. destruct a; discriminate.
Qed.

Lemma done_reach s i nw x y : Inv J s i nw -> In x U -> K s x = KDone -> R x y -> In y U /\ K s y = KDone.
Proof.
  intros I Hx Hd Hr. apply clos_rt_rt1n in Hr. revert Hx Hd. induction Hr as [x|x y z Hxy Hr IH]; [auto|].
  intros Hx Hd. apply IH; [eapply reqU; eassumption|]. eapply (i_closed _ _ _ _ I); eassumption.
Qed.

Theorem search f : fresh U s0 <= f ->
  match visit f m0 0 s0 with
  | (Ok _, s) => exists i nw, Inv J s i nw /\ stk s = [] /\ K s m0 = KDone /\
                   (forall x, In x nw <-> K s0 x = KFresh /\ R m0 x)
  | (Thrown e, s) => (exists i nw, Inv (JT e) s i nw) /\ (K s0 m0 = KFresh -> In m0 (stk s)) /\
                     exists x, R m0 x /\ Cause x e
  | _ => False
  end.
Proof.
  intros Hf.
  assert (G : good m0 s0 [] 0 (visit f m0 0 s0)).
  { apply visit_ok; auto using inv0, R_refl.
    - intros x Hx. rewrite Hstk0 in Hx. destruct Hx.
    - intros x Hx. rewrite Hstk0 in Hx. destruct Hx. }
  destruct (visit f m0 0 s0) as [[i|e| |] s]; cbn [good] in G; try contradiction.
  - destruct G as (_ & nw & I & L & Kp & _ & _ & seg & Hs & Hseg & Hc).
    rewrite Hstk0, app_nil_r in Hs.
    assert (Hd : K s m0 = KDone /\ seg = []).
    { destruct Hc as [h|[[h _]|[h1 h2]]]; [assumption|rewrite Hstk0 in h; destruct h|exfalso].
      destruct (i_wit _ _ _ _ I m0) as (y & Hy & e1 & e2); [now rewrite Hs|].
      assert (Hys : In y seg) by now rewrite Hs in Hy.
      pose proof (h2 y Hys). pose proof (L y Hy (proj1 (Hseg y Hys))). lia. }
    destruct Hd as [Hd ->]. exists i, nw. split; [assumption|]. split; [assumption|]. split; [assumption|].
    intros x. split.
    + intros Hx. destruct (i_nw _ _ _ _ I x Hx) as (_ & p & _ & q). auto.
    + intros [p q]. destruct (done_reach _ _ _ _ _ I Hm0 Hd q) as [Hx Hx']. now apply (i_new _ _ _ _ I).
  - destruct G as (i & nw & I & Kp & (seg & Hs & Hm) & x & p & q).
    rewrite Hstk0, app_nil_r in Hs. split; [eauto|]. split; [rewrite Hs; assumption|eauto].
Qed.

End Dfs.
