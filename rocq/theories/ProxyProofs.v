(** Proofs about proxies: every answer agrees with the object at the bottom. *)
From Coq Require Import ZArith List Bool Lia.
Import ListNotations.
From Verif Require Import StrModel StoreModel StoreSpec StoreProofs ObjModel ObjSpec ObjProofs ArrProofs HeapProofs LevelProofs ProxyModel ProxySpec.

(** ** facts about an object of the heap *)
Definition holds (x : nat) (h : heap) (F : fact) : Prop :=
  exists o, nth_error h x = Some o /\
    match F with
    | FNonExt => ext o = false
    | FProto q => ext o = false /\ proto o = q
    | FAbsent k => ext o = false /\ look o k = None
    | FPinned k => exists p, look o k = Some p /\ cf p = false
    | FFixed k a => non_configurable a /\ exists p, look o k = Some p /\ stable a (view p)
    end.
Lemma holds_mono : forall x h h' F, hevolves h h' -> holds x h F -> holds x h' F.
Proof.
  intros x h h' F E (o & N & H). destruct (E x o N) as (o' & N' & [K X P W St]). exists o'. split; [exact N'|]. destruct F.
  - auto.
  - destruct H as [H1 H2]. split; [auto | rewrite P by exact H1; exact H2].
  - destruct H as [H1 H2]. split; auto.
  - destruct H as (p & L & C). destruct (St k p L C) as (q & Q1 & Q2). exists q. split; [exact Q1|].
    apply view_nonconf. apply view_nonconf in C. exact (stable_nonconf _ _ C Q2).
  - destruct H as (NC & p & L & ST). split; [exact NC|]. pose proof (stable_nonconf _ _ NC ST) as C. apply view_nonconf in C.
    destruct (St k p L C) as (q & Q1 & Q2). exists q. split; [exact Q1|]. exact (stable_trans _ _ _ NC ST Q2).
Qed.
Lemma hev_refl : forall h, hevolves h h.
Proof. intros h x o H. exists o. split; [exact H | apply evolves_refl]. Qed.

(** ** triples *)
Definition Good (s : pst) : Prop := HInv (hp s) /\ Forall ev_ok (evs s).
Definition adv (s s' : pst) : Prop := hevolves (hp s) (hp s') /\ (lost s = true -> lost s' = true).
Definition okp {A} (P : heap -> Prop) (m : M A) (Q : A -> heap -> Prop) : Prop :=
  forall s, Good s ->
    match m s with
    | Ret a s' => Good s' /\ adv s s' /\ (lost s' = false -> P (hp s) -> Q a (hp s'))
    | Thrown s' => Good s' /\ adv s s'
    | Stop => True
    end.
Definition okm {A} (m : M A) (Q : heap -> heap -> A -> Prop) : Prop := forall h0, okp (fun h => h = h0) m (fun a h1 => Q h0 h1 a).

Lemma adv_refl : forall s, adv s s.
Proof. intro s. split; [apply hev_refl | auto]. Qed.
Lemma adv_trans : forall a b c, adv a b -> adv b c -> adv a c.
Proof. intros a b c [E1 L1] [E2 L2]. split; [eapply hevolves_trans; eassumption | auto]. Qed.

Lemma okp_bind : forall {A B} P (m : M A) (f : A -> M B) Qm Q, okm m Qm ->
  (forall a, okp (fun h1 => exists h, P h /\ hevolves h h1 /\ Qm h h1 a) (f a) Q) -> okp P (mbind m f) Q.
Proof.
  intros A B P m f Qm Q Hm Hf s G. unfold mbind. specialize (Hm (hp s) s G). destruct (m s) as [a s1|s1|]; [|exact Hm|exact I].
  destruct Hm as (G1 & A1 & Q1). specialize (Hf a s1 G1). destruct (f a s1) as [b s2|s2|]; [| |exact I].
  - destruct Hf as (G2 & A2 & Q2). split; [exact G2|]. split; [eapply adv_trans; eassumption|]. intros L2 P0. apply Q2; [exact L2|].
    exists (hp s). split; [exact P0|]. split; [apply A1|]. apply Q1; [|reflexivity]. destruct (lost s1) eqn:L1; [|reflexivity]. destruct A2 as [_ A2]. rewrite A2 in L2; auto.
  - destruct Hf as (G2 & A2). split; [exact G2|]. eapply adv_trans; eassumption.
Qed.
Lemma okp_ret : forall {A} (P : heap -> Prop) (a : A) (Q : A -> heap -> Prop), (forall h, P h -> Q a h) -> okp P (ret a) Q.
Proof. intros A P a Q H s G. cbn. split; [exact G|]. split; [apply adv_refl|]. intros _ P0. apply H. exact P0. Qed.
Lemma okp_throw : forall {A} P (Q : A -> heap -> Prop), okp P throw Q.
Proof. intros A P Q s G. cbn. split; [exact G | apply adv_refl]. Qed.
Lemma okp_stop : forall {A} P (Q : A -> heap -> Prop), okp P stop Q.
Proof. intros A P Q s G. exact I. Qed.
Lemma okp_okm : forall {A} (P : heap -> Prop) (m : M A) Qm (Q : A -> heap -> Prop), okm m Qm -> (forall a h h1, P h -> hevolves h h1 -> Qm h h1 a -> Q a h1) -> okp P m Q.
Proof.
  intros A P m Qm Q H I s G. specialize (H (hp s) s G). destruct (m s) as [a s1|s1|]; [|exact H|exact Logic.I].
  destruct H as (G1 & A1 & Q1). split; [exact G1|]. split; [exact A1|]. intros L P0. apply (I a (hp s)); [exact P0 | apply A1 | apply Q1; auto].
Qed.
Lemma okm_weaken : forall {A} (m : M A) (Q Q' : heap -> heap -> A -> Prop), okm m Q -> (forall h0 h1 a, hevolves h0 h1 -> Q h0 h1 a -> Q' h0 h1 a) -> okm m Q'.
Proof. intros A m Q Q' H I h0. eapply okp_okm; [exact H|]. cbn. intros a h h1 -> E q. apply I; assumption. Qed.
Lemma okm_truth : forall m Q, okm m Q -> okm (truth m) Q.
Proof.
  intros m Q H h0 s G. specialize (H h0 s G). unfold truth. destruct (m s) as [b s1|s1|]; [exact H| |exact I].
  destruct H as (G1 & A1). split; [split; [apply G1 | apply G1]|]. split; [split; [apply A1 | reflexivity]|]. cbn. discriminate.
Qed.

Definition ans_ok (a : ans) : Prop := match a with KeyList ks => Forall valid_key ks | _ => True end.
Lemma okm_ask : okm ask (fun _ _ a => ans_ok a).
Proof.
  intros h0 s (HI & EV). unfold ask. destruct (evs s) as [|e r] eqn:Ee; [exact I|]. inversion EV as [|x l [O A] R]; subst x l.
  destruct (o_run (hp s) (e_ops e)) as [h| |] eqn:E; [|exact I|exact I].
  destruct (run_hinv _ _ _ HI O E) as [H1 H2].
  assert (G : forall z, Good {| hp := h; revoked := z; evs := r; lost := lost s |}) by (intro z; split; [exact H1 | exact R]).
  assert (AD : forall z, adv s {| hp := h; revoked := z; evs := r; lost := lost s |}) by (intro z; split; [exact H2 | auto]).
  destruct (e_ans e); cbn; try (split; [apply G | split; [apply AD | intros _ _; cbn; auto]]). split; [apply G | apply AD].
Qed.

Lemma ask_ok : forall s a s', Good s -> ask s = Ret a s' -> Good s' /\ adv s s' /\ ans_ok a.
Proof.
  intros s a s' (HI & EV) H. unfold ask in H. destruct (evs s) as [|e r] eqn:Ee; [discriminate|]. inversion EV as [|x l [O A] R]; subst x l.
  destruct (o_run (hp s) (e_ops e)) as [h| |] eqn:E; [|discriminate|discriminate].
  destruct (run_hinv _ _ _ HI O E) as [H1 H2].
  destruct (e_ans e) eqn:EA; try discriminate; injection H as <- <-; (split; [split; [exact H1 | exact R]|]; split; [split; [exact H2 | auto] | cbn; auto]).
Qed.
Definition left_mono {A} (Q : heap -> heap -> A -> Prop) : Prop := forall h0 h1 h2 a, hevolves h0 h1 -> Q h1 h2 a -> Q h0 h2 a.
Lemma okm_after : forall {A} (m : M A) Q s s1, left_mono Q -> Good s1 -> adv s s1 -> okm m Q ->
  match m s1 with Ret b s' => Good s' /\ adv s s' /\ (lost s' = false -> Q (hp s) (hp s') b) | Thrown s' => Good s' /\ adv s s' | Stop => True end.
Proof.
  intros A m Q s s1 LM G1 A1 H. specialize (H (hp s1) s1 G1). destruct (m s1) as [b s2|s2|]; [| |exact I].
  - destruct H as (G2 & A2 & Q2). split; [exact G2|]. split; [eapply adv_trans; eassumption|]. intros L2. eapply LM; [apply A1|]. apply Q2; auto.
  - destruct H as (G2 & A2). split; [exact G2 | eapply adv_trans; eassumption].
Qed.
Lemma okm_trap : forall {A} p (fwd : M A) k Q, left_mono Q -> okm fwd Q -> (forall a, ans_ok a -> okm (k a) Q) -> okm (with_trap p fwd k) Q.
Proof.
  intros A p fwd k Q LM HF HK h0 s G. unfold with_trap, mbind, is_revoked. destruct (existsb (Nat.eqb p) (revoked s)).
  - cbn. split; [exact G | apply adv_refl].
  - pose proof (okm_ask (hp s) s G) as HA. destruct (ask s) as [a s1|s1|] eqn:EA; [|exact HA|exact I]. clear HA.
    destruct (ask_ok s a s1 G EA) as (G1 & A1 & OA).
    assert (X : forall m, okm m Q -> match m s1 with Ret b s' => Good s' /\ adv s s' /\ (lost s' = false -> hp s = h0 -> Q h0 (hp s') b) | Thrown s' => Good s' /\ adv s s' | Stop => True end).
    { intros m Hm. pose proof (okm_after m Q s s1 LM G1 A1 Hm) as Y. destruct (m s1); [|exact Y|exact I]. destruct Y as (Y1 & Y2 & Y3). split; [exact Y1|]. split; [exact Y2|]. intros L <-. auto. }
    destruct a; apply X; auto.
Qed.
Lemma okm_bind : forall {A B} (m : M A) (f : A -> M B) Qm Q, okm m Qm ->
  (forall a h0, okp (fun h1 => hevolves h0 h1 /\ Qm h0 h1 a) (f a) (Q h0)) -> okm (mbind m f) (fun h0 h1 b => Q h0 b h1).
Proof.
  intros A B m f Qm Q Hm Hf h0. eapply okp_bind; [exact Hm|]. intro a. cbn. intros s G. specialize (Hf a h0 s G). destruct (f a s); [|exact Hf|exact I].
  destruct Hf as (X & Y & Z). split; [exact X|]. split; [exact Y|]. intros L (h & -> & E & q). apply Z; auto.
Qed.

(** ** what an answer means *)
Record means (x : nat) (O : obs) (h0 h1 : heap) : Prop := {
  m_no : forall F, contradicts O F -> ~ holds x h0 F;
  m_yes : forall F, teaches O F -> holds x h1 F;
  m_nonext : forall F, teaches_nonext O F -> holds x h0 FNonExt -> holds x h1 F
}.
Lemma means_mono : forall x O h0 h1 h2 h3, hevolves h0 h1 -> hevolves h2 h3 -> means x O h1 h2 -> means x O h0 h3.
Proof.
  intros x O h0 h1 h2 h3 E1 E2 [N Y X]. constructor.
  - intros F C H. apply (N F C). eapply holds_mono; eassumption.
  - intros F T. eapply holds_mono; [exact E2 | auto].
  - intros F T H. eapply holds_mono; [exact E2|]. apply (X F T). eapply holds_mono; eassumption.
Qed.
Lemma means_left : forall {A} x (f : A -> obs), left_mono (fun h0 h1 a => means x (f a) h0 h1).
Proof. intros A x f h0 h1 h2 a E M. eapply means_mono; [exact E | apply hev_refl | exact M]. Qed.

(** the object at the bottom *)
Lemma okm_obj : forall {A} x (f : obj -> M A) Q,
  (forall o h0, nth_error h0 x = Some o -> OInv o -> kind o <> Exotic -> okp (fun h => h = h0) (f o) (fun a h1 => Q h0 h1 a)) -> okm (mbind (the_obj x) f) Q.
Proof.
  intros A x f Q H h0 s G. unfold mbind, the_obj. destruct (nth_error (hp s) x) as [o|] eqn:N; [|exact I].
  assert (K : kind o = Exotic \/ kind o <> Exotic) by (destruct (kind o); auto; right; discriminate). destruct K as [K | K]; [rewrite K; exact I|].
  assert (X : match f o s with Ret a s' => Good s' /\ adv s s' /\ (lost s' = false -> hp s = h0 -> Q h0 (hp s') a) | Thrown s' => Good s' /\ adv s s' | Stop => True end).
  { specialize (H o (hp s) N (hi_objs _ (proj1 G) x o N) K s G). destruct (f o s); [|exact H|exact I]. destruct H as (X & Y & Z). split; [exact X|]. split; [exact Y|]. intros L <-. auto. }
  destruct (kind o); [exact X | exact X | congruence].
Qed.

Ltac inv_obs := let F := fresh "F" in let H := fresh "H" in intros F H; inversion H; subst; clear H.

Lemma is_ext_ok : forall t, okm (is_ext t) (fun h0 h1 b => means (bottom t) (OExt b) h0 h1).
Proof.
  induction t as [x|p t IH]; cbn [is_ext bottom].
  - apply okm_obj. intros o h0 N OI K. apply okp_ret. intros h ->. constructor; inv_obs.
    + intros (o' & N' & H'). congruence.
    + exists o. split; [exact N | congruence].
  - apply okm_trap; [apply means_left | exact IH|]. intros a _. destruct a as [| |b| | | | | | |]; try (intro; apply okp_stop).
    apply (okm_bind _ _ _ (fun h0 b h1 => means (bottom t) (OExt b) h0 h1) IH). intros b2 h0. destruct (Bool.eqb b b2) eqn:E; [|apply okp_throw].
    apply eqb_prop in E. subst b2. apply okp_ret. intros h [_ H]. exact H.
Qed.

Lemma get_proto_ok : forall t, okm (get_proto t) (fun h0 h1 q => means (bottom t) (OProto q) h0 h1).
Proof.
  induction t as [x|p t IH]; cbn [get_proto bottom].
  - apply okm_obj. intros o h0 N OI K. apply okp_ret. intros h ->. constructor; inv_obs.
    + intros (o' & N' & H' & P'). congruence.
    + intros (o' & N' & H'). exists o. split; [exact N|]. split; [congruence | reflexivity].
  - apply okm_trap; [apply means_left | exact IH|]. intros a _. destruct a as [| | | |r| | | | |]; try (intro; apply okp_stop); [|intro; apply okp_throw].
    apply (okm_bind _ _ _ (fun h0 q h1 => means (bottom t) (OProto q) h0 h1) (okm_truth _ _ (is_ext_ok t))). intros e h0. destruct e.
    + apply okp_ret. intros h [E ME]. constructor; inv_obs.
      * intros (o' & N' & H' & P'). apply (m_no _ _ _ _ ME FNonExt c_ext). exists o'. auto.
      * intros NE. destruct (m_no _ _ _ _ ME FNonExt c_ext NE).
    + eapply okp_bind; [exact IH|]. intro q. destruct (proto_eqb r q) eqn:PE; [|apply okp_throw].
      assert (r = q) as -> by (destruct r, q; cbn in PE; try discriminate; [apply Nat.eqb_eq in PE; congruence | reflexivity]).
      apply okp_ret. intros h2 (h & [E ME] & E2 & MQ). eapply means_mono; [exact E | apply hev_refl | exact MQ].
Qed.

Lemma okm_op : forall op, op_ok op -> okm (do_op op) (fun h0 h1 b => HInv h0 /\ o_step h0 op = Done (h1, if b then RTrue else RFalse)).
Proof.
  intros op O h0 s [HI EV]. unfold do_op. destruct (o_step (hp s) op) as [[h r]| |] eqn:E; [|exact I|exact I].
  pose proof (done_effect _ _ _ _ HI O E) as EF. pose proof (effect_hinv _ _ _ HI EF) as H1. pose proof (effect_evolves _ _ _ HI EF) as H2.
  assert (G : Good {| hp := h; revoked := revoked s; evs := evs s; lost := lost s |}) by (split; assumption).
  assert (AD : adv s {| hp := h; revoked := revoked s; evs := evs s; lost := lost s |}) by (split; [exact H2 | auto]).
  destruct r; auto; (split; [exact G|]; split; [exact AD|]; cbn; intros _ <-; auto).
Qed.

Lemma set_proto_ok : forall t q, okm (set_proto_of t q) (fun h0 h1 b => means (bottom t) (OSetProto q b) h0 h1).
Proof.
  induction t as [x|p t IH]; intro q; cbn [set_proto_of bottom].
  - apply okm_obj. intros o h0 N OI K. eapply okp_okm; [apply okm_op; exact I|]. cbn beta. intros b h h1 -> E [HI ST].
    cbn [o_step] in ST. unfold set_proto in ST. rewrite N in ST.
    assert (X : b = true -> ext o = false -> proto o = q).
    { intros -> EX. destruct (kind o); [| |congruence]; (destruct (proto_eqb (proto o) q) eqn:PE; [destruct (proto o), q; cbn in PE; try discriminate; [apply Nat.eqb_eq in PE; congruence | reflexivity] | rewrite EX in ST; discriminate ST]). }
    constructor; inv_obs.
    + intros (o' & N' & H' & P'). rewrite N in N'. injection N' as <-. rewrite (X eq_refl H') in P'. contradiction.
    + intros (o' & N' & H'). rewrite N in N'. injection N' as <-. apply (holds_mono x h0); [exact E|]. exists o. auto.
  - apply okm_trap; [apply means_left | apply IH|]. intros a _. destruct a as [| |b| | | | | | |]; try (intro; apply okp_stop).
    destruct b; [|intro; apply okp_ret; intros h ->; constructor; inv_obs].
    apply (okm_bind _ _ _ (fun h0 b h1 => means (bottom t) (OSetProto q b) h0 h1) (is_ext_ok t)). intros e h0. destruct e.
    + apply okp_ret. intros h [E ME]. constructor; inv_obs.
      * intros (o' & N' & H' & P'). apply (m_no _ _ _ _ ME FNonExt c_ext). exists o'. auto.
      * intros NE. destruct (m_no _ _ _ _ ME FNonExt c_ext NE).
    + eapply okp_bind; [apply get_proto_ok|]. intro r. destruct (proto_eqb q r) eqn:PE; [|apply okp_throw].
      assert (q = r) as -> by (destruct r, q; cbn in PE; try discriminate; [apply Nat.eqb_eq in PE; congruence | reflexivity]).
      apply okp_ret. intros h2 (h & [E ME] & E2 & MQ). pose proof (means_mono _ _ _ _ _ _ E (hev_refl _) MQ) as MQ'. constructor; inv_obs.
      * apply (m_no _ _ _ _ MQ'). constructor. assumption.
      * apply (m_nonext _ _ _ _ MQ'). constructor.
Qed.

Lemma prevent_ok : forall t, okm (prevent t) (fun h0 h1 b => means (bottom t) (OPrevent b) h0 h1).
Proof.
  induction t as [x|p t IH]; cbn [prevent bottom].
  - apply okm_obj. intros o h0 N OI K. eapply okp_okm; [apply okm_op; exact I|]. cbn beta. intros b h h1 -> E [HI ST].
    cbn [o_step] in ST. rewrite N in ST. constructor; inv_obs.
    assert (Y : h1 = put h0 x (with_ext o false)) by (destruct (kind o); congruence). subst h1.
    exists (with_ext o false). split; [apply put_same; eapply nth_lt; exact N | reflexivity].
  - apply okm_trap; [apply means_left | apply IH|]. intros a _. destruct a as [| |b| | | | | | |]; try (intro; apply okp_stop).
    destruct b; [|intro; apply okp_ret; intros h ->; constructor; inv_obs].
    apply (okm_bind _ _ _ (fun h0 b h1 => means (bottom t) (OPrevent b) h0 h1) (is_ext_ok t)). intros e h0. destruct e; [apply okp_throw|].
    apply okp_ret. intros h [E ME]. constructor; inv_obs. apply (m_yes _ _ _ _ ME). constructor.
Qed.

(** *** descriptors *)
Lemma complete_full : forall d, is_acc d && is_data d = false -> exists a, complete d = full a.
Proof.
  intros d H. unfold complete. destruct (is_acc d) eqn:IA.
  - cbn in H. rewrite H. unfold is_generic. rewrite IA, H. cbn. unfold is_data in H. apply orb_false_iff in H. destruct H as [W V].
    destruct (d_wr d); [discriminate|]. destruct (d_val d); [discriminate|].
    exists (AAcc (or_undef (d_get d)) (or_undef (d_set d)) (flag (d_en d)) (flag (d_cf d))). reflexivity.
  - assert (G : is_generic d || is_data d = true) by (unfold is_generic; rewrite IA; destruct (is_data d); reflexivity). rewrite G.
    unfold is_acc in IA. apply orb_false_iff in IA. destruct IA as [W V]. destruct (d_get d); [discriminate|]. destruct (d_set d); [discriminate|].
    exists (AData (or_undef (d_val d)) (flag (d_wr d)) (flag (d_en d)) (flag (d_cf d))). reflexivity.
Qed.
Definition prop_of (a : aprop) : prop :=
  match a with
  | AData v w e c => {| acc := false; wr := w; en := e; cf := c; pval := v; pget := Undef; pset := Undef |}
  | AAcc g s e c => {| acc := true; wr := false; en := e; cf := c; pval := Undef; pget := g; pset := s |}
  end.
Lemma view_prop_of : forall a, view (prop_of a) = a.
Proof. destruct a; reflexivity. Qed.
Lemma prop_of_wfp : forall a, wfp (prop_of a).
Proof. destruct a; unfold wfp; cbn; [discriminate | reflexivity]. Qed.
Lemma full_wf : forall a, wf_desc (full a).
Proof. destruct a; [left | right]; cbn; auto. Qed.
Lemma full_flags : forall a, no_flags (full a) = false.
Proof. destruct a; reflexivity. Qed.
Lemma refused_full : forall d b, wf_desc d -> (refused d (full b) = true <-> rejected d b).
Proof.
  intros d b W. rewrite <- (view_prop_of b). rewrite <- desc_full. apply refused_spec; [exact W | apply prop_of_wfp].
Qed.
Lemma compatible_full : forall e d b, wf_desc d -> compatible e d (Some (full b)) = true -> ~ rejected d b.
Proof.
  intros e d b W C R. unfold compatible in C. apply (refused_full d b W) in R. rewrite R in C. cbn in C. rewrite orb_false_r in C.
  rewrite (no_flags_refused _ _ C) in R. discriminate.
Qed.
Lemma compatible_full_iff : forall e d b, wf_desc d -> (compatible e d (Some (full b)) = true <-> ~ rejected d b).
Proof.
  intros e d b W. split; [apply compatible_full; exact W|]. intro N. unfold compatible. destruct (refused d (full b)) eqn:E; [|rewrite orb_true_r; reflexivity].
  exfalso. apply N. apply refused_full; assumption.
Qed.
(** a report that is not rejected by a non-configurable property is one of its allowed futures *)
Lemma accepted_stable : forall a b, ~ rejected (full a) b -> non_configurable b -> stable b a /\ non_configurable a.
Proof.
  intros a b N C. destruct b as [v w e c|g s e c]; cbn in C; subst c.
  - destruct a as [v' w' e' c'|g' s' e' c']; [|exfalso; apply N; apply rej_to_accessor; left; discriminate].
    assert (c' = false) as -> by (destruct c'; [exfalso; apply N; apply rej_configurable; reflexivity | reflexivity]).
    assert (e' = e) as -> by (destruct (Bool.bool_dec e' e); [assumption | exfalso; apply N; eapply rej_enumerable; [reflexivity | reflexivity | assumption]]).
    split; [|reflexivity]. destruct w; cbn; [intros _; eauto|]. intros _.
    assert (w' = false) as -> by (destruct w'; [exfalso; apply N; apply rej_writable; reflexivity | reflexivity]).
    destruct (val_eqb_spec v' v) as [-> | NV]; [reflexivity|]. exfalso. apply N. eapply rej_value; [reflexivity | exact NV].
  - destruct a as [v' w' e' c'|g' s' e' c']; [exfalso; apply N; apply rej_to_data; left; discriminate|].
    assert (c' = false) as -> by (destruct c'; [exfalso; apply N; apply rej_configurable; reflexivity | reflexivity]).
    assert (e' = e) as -> by (destruct (Bool.bool_dec e' e); [assumption | exfalso; apply N; eapply rej_enumerable; [reflexivity | reflexivity | assumption]]).
    split; [|reflexivity]. cbn. intros _. destruct (val_eqb_spec g' g) as [-> | NG]; [|exfalso; apply N; eapply rej_get; [reflexivity | exact NG]].
    destruct (val_eqb_spec s' s) as [-> | NS]; [reflexivity | exfalso; apply N; eapply rej_set; [reflexivity | exact NS]].
Qed.
Lemma accepted_stable_back : forall a b, ~ rejected (full a) b -> non_configurable b -> negb (flag (d_wr (full a))) && flag (d_wr (full b)) = false -> stable a b.
Proof.
  intros a b N C W. destruct (accepted_stable a b N C) as [S CA]. destruct b as [v w e c|g s e c]; cbn in C; subst c.
  - destruct w.
    + cbn in S. destruct (S eq_refl) as (v' & w' & ->). cbn in W. destruct w'; [|discriminate]. cbn. intros _. eauto.
    + cbn in S. rewrite (S eq_refl). cbn. auto.
  - cbn in S. rewrite (S eq_refl). cbn. auto.
Qed.
Lemma full_cf : forall a, d_cf (full a) = Some (match a with AData _ _ _ c => c | AAcc _ _ _ c => c end).
Proof. destruct a; reflexivity. Qed.
Lemma full_nonconf : forall a, flag (d_cf (full a)) = false <-> non_configurable a.
Proof. intro a. rewrite full_cf. destruct a; reflexivity. Qed.

(** ** [[GetOwnProperty]] *)
Definition own_means (x : nat) (k : key) (h0 h1 : heap) (c : option desc) : Prop :=
  means x (OGetOwn k c) h0 h1 /\ forall cd, c = Some cd -> exists a, cd = full a.
Lemma own_left : forall x k, left_mono (own_means x k).
Proof. intros x k h0 h1 h2 c E [M S]. split; [|exact S]. eapply means_mono; [exact E | apply hev_refl | exact M]. Qed.
Lemma own_pinned : forall x k h0 h1 a, means x (OGetOwn k (Some (full a))) h0 h1 -> holds x h0 (FPinned k) -> non_configurable a.
Proof.
  intros x k h0 h1 a M H. destruct (match a with AData _ _ _ c => c | AAcc _ _ _ c => c end) eqn:E; [|destruct a; exact E].
  exfalso. apply (m_no _ _ _ _ M (FPinned k)); [|exact H]. apply c_configurable. rewrite full_cf, E. reflexivity.
Qed.
Lemma own_fixed : forall x k h0 h1 a c, means x (OGetOwn k (Some (full c))) h0 h1 -> holds x h0 (FFixed k a) -> stable a c.
Proof.
  intros x k h0 h1 a c M H. assert (D : stable a c \/ ~ stable a c).
  { destruct a as [v [|] e cc|g s e cc], c as [v' w' e' c'|g' s' e' c']; cbn.
    - destruct cc; [left; congruence|]. destruct c'; [right; intro X; destruct (X eq_refl) as (? & ? & Y); discriminate|].
      destruct (Bool.bool_dec e' e) as [-> | NE]; [left; eauto|]. right; intro X; destruct (X eq_refl) as (? & ? & Y); congruence.
    - destruct cc; [left; congruence|]. right; intro X; destruct (X eq_refl) as (? & ? & Y); discriminate.
    - destruct cc; [left; congruence|]. destruct (val_eqb_spec v' v) as [-> | NV]; [|right; intro X; specialize (X eq_refl); congruence].
      destruct w', c', (Bool.bool_dec e' e) as [-> | NE]; try (right; intro X; specialize (X eq_refl); congruence). left; reflexivity.
    - destruct cc; [left; congruence|]. right; intro X; specialize (X eq_refl); discriminate.
    - destruct cc; [left; congruence|]. right; intro X; specialize (X eq_refl); discriminate.
    - destruct cc; [left; congruence|]. destruct (val_eqb_spec g' g) as [-> | NG]; [|right; intro X; specialize (X eq_refl); congruence].
      destruct (val_eqb_spec s' s) as [-> | NS]; [|right; intro X; specialize (X eq_refl); congruence].
      destruct c', (Bool.bool_dec e' e) as [-> | NE]; try (right; intro X; specialize (X eq_refl); congruence). left; reflexivity. }
  destruct D as [D | D]; [exact D|]. exfalso. apply (m_no _ _ _ _ M (FFixed k a)); [|exact H]. apply c_changed. intros b SB E. apply full_inj in E. subst b. contradiction.
Qed.
Lemma fixed_pinned : forall x h k a, holds x h (FFixed k a) -> holds x h (FPinned k).
Proof. intros x h k a (o & N & NC & p & L & S). exists o. split; [exact N|]. exists p. split; [exact L|]. apply view_nonconf. exact (stable_nonconf _ _ NC S). Qed.

Lemma base_own_means : forall x k h o, nth_error h x = Some o -> own_means x k h h (option_map desc_of (look o k)).
Proof.
  intros x k h o N. split.
  - destruct (look o k) as [p|] eqn:L; cbn [option_map]; [rewrite desc_full|]; constructor; inv_obs; try (intros (o' & N' & H'); rewrite N in N'; injection N' as <-).
    + destruct H' as [_ H']. congruence.
    + destruct H' as (q & Lq & C). rewrite L in Lq. injection Lq as <-. apply view_nonconf in C. match goal with H : d_cf _ = Some true |- _ => rewrite full_cf in H; destruct (view p); cbn in C; congruence end.
    + destruct H' as (NC & q & Lq & ST). rewrite L in Lq. injection Lq as <-. match goal with H : forall b, stable _ b -> _ |- _ => apply (H _ ST); reflexivity end.
    + match goal with H : full _ = full _ |- _ => apply full_inj in H; subst end. exists o. split; [exact N|]. exists p. split; [exact L | apply view_nonconf; assumption].
    + match goal with H : full _ = full _ |- _ => apply full_inj in H; subst end. exists o. split; [exact N|]. split; [assumption|]. exists p. split; [exact L | apply stable_refl].
    + destruct H' as (q & Lq & C). congruence.
    + exists o. auto.
  - intros cd H. destruct (look o k) as [p|]; [|discriminate]. injection H as <-. exists (view p). apply desc_full.
Qed.

Lemma get_own_ok : forall t k, valid_key k -> okm (get_own_of t k) (own_means (bottom t) k).
Proof.
  intros t k V. induction t as [x|p t IH]; cbn [get_own_of bottom].
  - apply okm_obj. intros o h0 N OI K s G. unfold from_sres, get_own. rewrite o_lookup_spec by (auto; apply oi_base; exact OI). cbn [sbind].
    split; [exact G|]. split; [apply adv_refl|]. intros _ ->. apply base_own_means. exact N.
  - apply okm_trap; [apply own_left | exact IH|]. intros a _. destruct a as [| | |v| | | | | |]; try (intro; apply okp_stop).
    + destruct v; try (intro; apply okp_stop).
      apply (okm_bind _ _ _ (fun h0 c h1 => own_means (bottom t) k h0 h1 c) IH). intros c h0. destruct c as [cd|].
      * destruct (flag (d_cf cd)) eqn:CF; cbn [negb]; [|apply okp_throw].
        eapply okp_bind; [apply is_ext_ok|]. intro e. destruct e; [|apply okp_throw]. apply okp_ret. intros h2 (h & [E1 [M1 S1]] & E2 & ME).
        destruct (S1 cd eq_refl) as (a & ->). split; [|intros ? X; discriminate X]. constructor; inv_obs.
        -- intro H. pose proof (own_pinned _ _ _ _ _ M1 H) as NC. apply full_nonconf in NC. congruence.
        -- intro NE. exfalso. apply (m_no _ _ _ _ ME FNonExt c_ext). eapply holds_mono; eassumption.
      * apply okp_ret. intros h [E [M S]]. split; [exact M | intros ? X; discriminate X].
    + apply (okm_bind _ _ _ (fun h0 c h1 => own_means (bottom t) k h0 h1 c) IH). intros c h0.
      eapply okp_bind; [apply is_ext_ok|]. intro e. eapply okp_bind; [apply okm_ask|]. intro b. destruct b; try apply okp_stop.
      destruct (is_acc d && is_data d) eqn:AD; [apply okp_throw|]. destruct (complete_full d AD) as (a & ->).
      destruct (compatible e (full a) c) eqn:CO; cbn [negb]; [|apply okp_throw].
      assert (FIN : (non_configurable a -> exists b, c = Some (full b) /\ non_configurable b /\ negb (flag (d_wr (full a))) && flag (d_wr (full b)) = false) ->
        okp (fun h1 => exists h, (exists h2, (hevolves h0 h2 /\ own_means (bottom t) k h0 h2 c) /\ hevolves h2 h /\ means (bottom t) (OExt e) h2 h) /\ hevolves h h1 /\ ans_ok (Descr d)) (ret (Some (full a))) (fun c h1 => own_means (bottom t) k h0 h1 c)).
      { intro NC. apply okp_ret. intros h3 (h2 & (h1 & [E1 [M1 S1]] & E2 & ME) & E3 & _). split; [|intros ? X; injection X as <-; eauto].
        assert (AB : forall h, hevolves h0 h -> holds (bottom t) h0 (FAbsent k) -> c = None /\ e = false).
        { intros h E A. destruct c as [cd|]; [exfalso; apply (m_no _ _ _ _ M1 (FAbsent k)); [apply c_appears | exact A]|]. split; [reflexivity|].
          destruct e; [|reflexivity]. exfalso. apply (m_no _ _ _ _ ME FNonExt c_ext). eapply holds_mono; [exact E1|]. destruct A as (o & N & X & _). exists o. auto. }
        assert (PI : holds (bottom t) h0 (FPinned k) -> exists b, c = Some (full b) /\ non_configurable b).
        { intro P. destruct c as [cd|].
          - destruct (S1 cd eq_refl) as (b & ->). exists b. split; [reflexivity|]. eapply own_pinned; eassumption.
          - exfalso. apply (m_no _ _ _ _ M1 (FPinned k)); [apply c_vanishes | exact P]. }
        constructor; inv_obs.
        - intro A. destruct (AB h0 (hev_refl h0) A) as [-> ->]. cbn in CO. discriminate.
        - intro P. destruct (PI P) as (b & -> & NB). apply compatible_full in CO; [|apply full_wf]. destruct (accepted_stable a b CO NB) as [_ NA].
          apply full_nonconf in NA. match goal with H : d_cf _ = Some true |- _ => rewrite H in NA; discriminate end.
        - intro FX. destruct (PI (fixed_pinned _ _ _ _ FX)) as (b & -> & NB). apply compatible_full in CO; [|apply full_wf]. destruct (accepted_stable a b CO NB) as [SB _].
          pose proof (own_fixed _ _ _ _ _ _ M1 FX) as SA. match goal with H : forall b, stable _ b -> _ |- _ => apply (H a); [|reflexivity] end. eapply stable_trans; [|exact SA | exact SB].
          destruct FX as (o & _ & NC0 & _). exact NC0.
        - match goal with H : full _ = full _ |- _ => apply full_inj in H; subst end. match goal with H : non_configurable a |- _ => pose proof (NC H) as NC2 end. destruct NC2 as (b & -> & NB & _).
          eapply holds_mono; [eapply hevolves_trans; [exact E2 | exact E3]|]. apply (m_yes _ _ _ _ M1). apply t_pinned with (a := b). exact NB.
        - match goal with H : full _ = full _ |- _ => apply full_inj in H; subst end. match goal with H : non_configurable a |- _ => pose proof (NC H) as NC2 end. destruct NC2 as (b & -> & NB & W). apply compatible_full in CO; [|apply full_wf].
          pose proof (accepted_stable_back _ _ CO NB W) as SB.
          assert (FB : holds (bottom t) h3 (FFixed k b)) by (eapply holds_mono; [eapply hevolves_trans; [exact E2 | exact E3]|]; apply (m_yes _ _ _ _ M1); apply t_fixed; exact NB).
          destruct FB as (o & N & _ & pp & L & S2). exists o. split; [exact N|]. split; [assumption|]. exists pp. split; [exact L|]. eapply stable_trans; eassumption. }
      destruct (flag (d_cf (full a))) eqn:CF; cbn [negb].
      * apply FIN. intro NA. apply full_nonconf in NA. congruence.
      * destruct c as [cd|]; [|apply okp_throw]. destruct (flag (d_cf cd)) eqn:CC; [apply okp_throw|].
        destruct (negb (flag (d_wr (full a))) && flag (d_wr cd)) eqn:WW; [apply okp_throw|].
        assert (SH : (exists b, cd = full b) \/ ~ (exists b, cd = full b)).
        { destruct cd as [v w g s e0 c0]. destruct e0 as [e0|], c0 as [c0|]; try (right; intros ([? ? ? ?|? ? ? ?] & X); discriminate X).
          destruct v as [v|], w as [w|], g as [g|], s as [s|]; try (right; intros ([? ? ? ?|? ? ? ?] & X); discriminate X).
          - left. exists (AData v w e0 c0). reflexivity.
          - left. exists (AAcc g s e0 c0). reflexivity. }
        destruct SH as [(b & ->) | NS].
        -- apply FIN. intros _. exists b. split; [reflexivity|]. split; [apply full_nonconf; exact CC | exact WW].
        -- intros s G. specialize (okp_ret (fun _ : heap => True) (Some (full a)) (fun _ _ => True) (fun _ _ => Logic.I) s G). unfold ret.
           intros (X1 & X2 & _). split; [exact X1|]. split; [exact X2|]. intros _ (h2 & (h1 & [_ [_ S1]] & _) & _). exfalso. apply NS. apply S1. reflexivity.
    + intro. apply okp_throw.
Qed.

(** ** [[DefineOwnProperty]] *)
Lemma define_true : forall o k d cv o', OInv o -> kind o <> Exotic -> valid_key k -> k <> KName length_key -> o_define o k d cv = SOk (o', RTrue) ->
  fst (pdefine (ext o) d (look o k)) = true /\ look o' k = snd (pdefine (ext o) d (look o k)).
Proof.
  intros o k d cv o' OI K V NL H. pose proof (oi_base o OI) as B. unfold o_define in H.
  assert (ORD : (do x <- ord_define o k d; SOk (fst x, res_of (snd x))) = SOk (o', RTrue) -> fst (pdefine (ext o) d (look o k)) = true /\ look o' k = snd (pdefine (ext o) d (look o k))).
  { intro E. destruct (ord_define_spec o k d B V) as [(E1 & _) | (o1 & E1 & U1)]; rewrite E1 in E; [discriminate|]. cbn [sbind fst snd] in E.
    destruct (fst (pdefine (ext o) d (look o k))) eqn:FP; [|discriminate]. injection E as <-. split; [reflexivity|]. apply (upd_look_same _ _ _ _ U1). }
  destruct (kind o) eqn:KO; [apply ORD; exact H| |congruence]. destruct k as [i|n].
  2: { destruct (nkey_eqb_spec n length_key) as [-> | NE]; [congruence | apply ORD; exact H]. }
  clear ORD. unfold array_set_item in H. destruct (oi_arr o OI KO) as (p & n & L & LP & IX). rewrite (array_len_spec o p n B L LP) in H. cbn [sbind] in H.
  destruct ((n <=? i)%Z && negb (flag (d_wr (desc_of p)))); [discriminate|].
  destruct (ord_define_spec o (KIdx i) d B V) as [(E1 & _) | (o1 & E1 & U1)]; rewrite E1 in H; [discriminate|]. cbn [sbind fst snd] in H.
  destruct (fst (pdefine (ext o) d (look o (KIdx i)))) eqn:FP; cbn [negb] in H; [|discriminate]. split; [reflexivity|].
  pose proof (upd_look_same _ _ _ _ U1) as L1. destruct (n <=? i)%Z; [|injection H as <-; exact L1].
  match type of H with context [ord_define o1 _ ?d] => destruct (ord_define_len o1 d (u_base _ _ _ _ U1)) as (o2 & E2 & U2); rewrite E2 in H; cbn [sbind fst snd] in H; injection H as <- end.
  rewrite (upd_look_other _ _ _ _ _ U2) by discriminate. exact L1.
Qed.
Lemma define_true_ecma : forall o k d cv o', OInv o -> kind o <> Exotic -> valid_key k -> wf_desc d -> k <> KName length_key -> o_define o k d cv = SOk (o', RTrue) ->
  ecma_define (ext o) d (option_map view (look o k)) true (option_map view (look o' k)).
Proof.
  intros o k d cv o' OI K V W NL H. destruct (define_true o k d cv o' OI K V NL H) as [E1 E2]. rewrite E2, <- E1. apply pdefine_ecma; [exact W|].
  intros p L. exact (b_props o (oi_base o OI) k p L).
Qed.
Lemma ecma_cf : forall e d c q, d_cf d = Some false -> ecma_define e d c true (Some q) -> non_configurable q.
Proof.
  intros e d c q C H. inversion H; subst.
  - match goal with X : created _ _ |- _ => destruct X as [[_ ->] | [_ ->]]; cbn; rewrite C; reflexivity end.
  - match goal with X : changed _ _ _ |- _ => inversion X; subst; cbn; rewrite C; reflexivity end.
Qed.
Lemma ecma_some : forall e d c q, ecma_define e d c true q -> exists a, q = Some a.
Proof. intros e d c q H. inversion H; subst; eauto. Qed.

Lemma own_absent : forall x k h0 h1 c, own_means x k h0 h1 c -> holds x h0 (FAbsent k) -> c = None.
Proof. intros x k h0 h1 c [M _] A. destruct c as [cd|]; [|reflexivity]. exfalso. apply (m_no _ _ _ _ M (FAbsent k)); [apply c_appears | exact A]. Qed.
Lemma own_present : forall x k h0 h1 c, own_means x k h0 h1 c -> holds x h0 (FPinned k) -> exists a, c = Some (full a) /\ non_configurable a.
Proof.
  intros x k h0 h1 c [M S] P. destruct c as [cd|].
  - destruct (S cd eq_refl) as (a & ->). exists a. split; [reflexivity|]. eapply own_pinned; eassumption.
  - exfalso. apply (m_no _ _ _ _ M (FPinned k)); [apply c_vanishes | exact P].
Qed.
Lemma absent_nonext : forall x h k, holds x h (FAbsent k) -> holds x h FNonExt.
Proof. intros x h k (o & N & E & _). exists o. auto. Qed.
Lemma ext_true_no : forall x h0 h1 h F, means x (OExt true) h0 h1 -> hevolves h h0 -> (holds x h F -> holds x h FNonExt) -> ~ holds x h F.
Proof. intros x h0 h1 h F M E I H. apply (m_no _ _ _ _ M FNonExt c_ext). eapply holds_mono; [exact E|]. auto. Qed.

Lemma define_ok : forall t k d cv, valid_key k -> wf_desc d -> okm (define_of t k d cv) (fun h0 h1 b => means (bottom t) (ODefine k d b) h0 h1).
Proof.
  intros t k d cv V W. induction t as [x|p t IH]; cbn [define_of bottom].
  - apply okm_obj. intros o h0 N OI K. eapply okp_okm; [apply okm_op; split; assumption|]. cbn beta. intros b h h1 -> E [HI ST].
    cbn [o_step] in ST. rewrite N in ST. unfold upd_obj in ST.
    assert (X : b = true -> k <> KName length_key -> exists o', nth_error h1 x = Some o' /\ ecma_define (ext o) d (option_map view (look o k)) true (option_map view (look o' k))).
    { intros -> NL. destruct (o_define o k d cv) as [[o' r]| |] eqn:ED; cbn in ST; try discriminate. destruct r; try discriminate. injection ST as <-.
      exists o'. split; [apply put_same; eapply nth_lt; exact N|]. eapply define_true_ecma; eassumption. }
    constructor; inv_obs.
    + intros (o' & N' & H1 & H2). rewrite N in N'. injection N' as <-. destruct (X eq_refl ltac:(assumption)) as (o2 & _ & Y). rewrite H2 in Y. inversion Y; congruence.
    + intros (o' & N' & NC & q & L & ST'). rewrite N in N'. injection N' as <-. destruct (X eq_refl ltac:(assumption)) as (o2 & _ & Y). rewrite L in Y. cbn in Y. inversion Y; subst.
      match goal with A : ~ rejected _ _, B : forall b, stable _ b -> _ |- _ => apply A; apply B; exact ST' end.
    + destruct (X eq_refl ltac:(assumption)) as (o2 & N2 & Y). exists o2. split; [exact N2|]. destruct (ecma_some _ _ _ _ Y) as (a & EA). rewrite EA in Y.
      match goal with C : d_cf _ = Some false |- _ => pose proof (ecma_cf _ _ _ _ C Y) as NC end. destruct (look o2 k) as [q|]; [|discriminate EA]. injection EA as <-. exists q. split; [reflexivity|].
      apply view_nonconf. exact NC.
  - apply okm_trap; [apply means_left | apply IH|]. intros a _. destruct a as [| |b| | | | | | |]; try (intro; apply okp_stop).
    destruct b; [|intro; apply okp_ret; intros h ->; constructor; inv_obs].
    apply (okm_bind _ _ _ (fun h0 b h1 => means (bottom t) (ODefine k d b) h0 h1) (get_own_ok t k V)). intros c h0.
    eapply okp_bind; [apply is_ext_ok|]. intro e. destruct c as [cd|].
    + destruct (negb (compatible e d (Some cd))) eqn:CO; [apply okp_throw|]. apply negb_false_iff in CO.
      destruct (is_some (d_cf d) && negb (flag (d_cf d)) && flag (d_cf cd)) eqn:CF; [apply okp_throw|].
      match goal with |- okp _ (if ?b then _ else _) _ => destruct b; [apply okp_throw|] end.
      apply okp_ret. intros h2 (h1 & [E1 OM] & E2 & ME). destruct (proj2 OM cd eq_refl) as (b & ->). apply compatible_full in CO; [|exact W]. constructor; inv_obs.
      * intro A. pose proof (own_absent _ _ _ _ _ OM A). discriminate.
      * intro FX. apply CO. match goal with B : forall b, stable _ b -> _ |- _ => apply B end. eapply own_fixed; [apply OM | exact FX].
      * match goal with C : d_cf _ = Some false |- _ => rewrite C in CF end. cbn in CF. apply full_nonconf in CF. eapply holds_mono; [exact E2|]. apply (m_yes _ _ _ _ (proj1 OM)). eapply t_pinned. exact CF.
    + destruct (negb e || is_some (d_cf d) && negb (flag (d_cf d))) eqn:CO; [apply okp_throw|]. apply orb_false_iff in CO. destruct CO as [EE CF]. apply negb_false_iff in EE. subst e.
      apply okp_ret. intros h2 (h1 & [E1 OM] & E2 & ME). constructor; inv_obs.
      * apply (ext_true_no _ _ _ _ _ ME E1). apply absent_nonext.
      * intro FX. destruct (own_present _ _ _ _ _ OM (fixed_pinned _ _ _ _ FX)) as (? & ? & _). discriminate.
      * match goal with C : d_cf _ = Some false |- _ => rewrite C in CF end. discriminate.
Qed.

(** ** [[HasProperty]] *)
Lemma okm_from : forall {A} (r : sres A), okm (from_sres r) (fun h0 h1 a => h1 = h0 /\ r = SOk a).
Proof. intros A r h0 s G. unfold from_sres. destruct r; [|exact I|exact I]. split; [exact G|]. split; [apply adv_refl|]. intros _ ->. auto. Qed.
Lemma get_own_look : forall o k, OInv o -> valid_key k -> get_own o k = SOk (option_map desc_of (look o k)).
Proof. intros o k OI V. unfold get_own. rewrite o_lookup_spec by (auto; apply oi_base; exact OI). reflexivity. Qed.
Lemma pinned_look : forall x h k o, nth_error h x = Some o -> look o k = None -> ~ holds x h (FPinned k).
Proof. intros x h k o N L (o' & N' & p & L' & _). congruence. Qed.

Lemma has_ok : forall t k, valid_key k -> okm (has_of t k) (fun h0 h1 b => means (bottom t) (OHas k b) h0 h1).
Proof.
  intros t k V. induction t as [x|p t IH]; cbn [has_of bottom].
  - apply okm_obj. intros o h0 N OI K. rewrite (get_own_look o k OI V). eapply okp_bind; [apply okm_from|]. intro c.
    assert (X : forall h1 b, c = None -> hevolves h0 h1 -> (exists h, h = h0 /\ hevolves h h0 /\ h0 = h /\ SOk (option_map desc_of (look o k)) = SOk c) -> means x (OHas k b) h0 h1).
    { intros h1 b -> E (h & _ & _ & _ & C). assert (L : look o k = None) by (destruct (look o k); [discriminate | reflexivity]). constructor; inv_obs.
      - eapply pinned_look; eassumption.
      - intros (o' & N' & EX). eapply holds_mono; [exact E|]. exists o. split; [exact N|]. split; [congruence | exact L]. }
    destruct c as [cd|]; [apply okp_ret; intros h1 _; constructor; inv_obs|]. destruct (proto o) as [q|].
    + eapply okp_bind; [apply okm_ask|]. intro a. destruct a; try apply okp_stop. apply okp_ret. intros h1 (h & (h' & -> & E' & [-> C]) & E & _).
      apply X; [reflexivity | exact E|]. exists h0. auto using hev_refl.
    + apply okp_ret. intros h1 (h & -> & E & [-> C]). apply X; [reflexivity | exact E|]. exists h0. auto.
  - apply okm_trap; [apply means_left | apply IH|]. intros a _. destruct a as [| |b| | | | | | |]; try (intro; apply okp_stop).
    destruct b; [intro; apply okp_ret; intros h ->; constructor; inv_obs|].
    apply (okm_bind _ _ _ (fun h0 b h1 => means (bottom t) (OHas k b) h0 h1) (get_own_ok t k V)). intros c h0. destruct c as [cd|].
    + destruct (flag (d_cf cd)) eqn:CF; cbn [negb]; [|apply okp_throw]. eapply okp_bind; [apply okm_truth; apply is_ext_ok|]. intro e. destruct e; [|apply okp_throw].
      apply okp_ret. intros h2 (h1 & [E1 OM] & E2 & ME). constructor; inv_obs.
      * intro P. destruct (own_present _ _ _ _ _ OM P) as (a & EQ & NC). injection EQ as ->. apply full_nonconf in NC. congruence.
      * intro NE. exfalso. apply (ext_true_no _ _ _ h0 FNonExt ME E1); auto.
    + apply okp_ret. intros h1 [E1 OM]. constructor; inv_obs.
      * intro P. destruct (own_present _ _ _ _ _ OM P) as (? & ? & _). discriminate.
      * intro NE. apply (m_nonext _ _ _ _ (proj1 OM) (FAbsent k) (tn_own k) NE).
Qed.

(** ** [[Get]] *)
Lemma fixed_ro : forall x h k w e c, holds x h (FFixed k (AData w false e c)) -> exists o p, nth_error h x = Some o /\ look o k = Some p /\ view p = AData w false e false.
Proof. intros x h k w e c (o & N & NC & p & L & S). cbn in *. exists o, p. auto. Qed.
Lemma fixed_acc : forall x h k g s e c, holds x h (FFixed k (AAcc g s e c)) -> exists o p, nth_error h x = Some o /\ look o k = Some p /\ view p = AAcc g s e false.
Proof. intros x h k g s e c (o & N & NC & p & L & S). cbn in *. exists o, p. auto. Qed.
Lemma own_ro : forall x k h0 h1 cc w e c, own_means x k h0 h1 cc -> holds x h0 (FFixed k (AData w false e c)) -> cc = Some (full (AData w false e false)).
Proof.
  intros x k h0 h1 cc w e c OM H. destruct (own_present _ _ _ _ _ OM (fixed_pinned _ _ _ _ H)) as (b & -> & NB). pose proof (own_fixed _ _ _ _ _ _ (proj1 OM) H) as S.
  destruct H as (o & _ & NC & _). cbn in NC, S. rewrite (S NC). reflexivity.
Qed.
Lemma own_acc : forall x k h0 h1 cc g s e c, own_means x k h0 h1 cc -> holds x h0 (FFixed k (AAcc g s e c)) -> cc = Some (full (AAcc g s e false)).
Proof.
  intros x k h0 h1 cc g s e c OM H. destruct (own_present _ _ _ _ _ OM (fixed_pinned _ _ _ _ H)) as (b & -> & NB). pose proof (own_fixed _ _ _ _ _ _ (proj1 OM) H) as S.
  destruct H as (o & _ & NC & _). cbn in NC, S. rewrite (S NC). reflexivity.
Qed.
Lemma val_eqb_refl' : forall v, val_eqb v v = true.
Proof. intro v. destruct (val_eqb_spec v v); congruence. Qed.

(** the descriptor of the target, when it is read *)
Definition reads (x : nat) (k : key) (c : option desc) (h0 : heap) : Prop :=
  (forall w e cc, holds x h0 (FFixed k (AData w false e cc)) -> c = Some (full (AData w false e false))) /\
  (forall g s e cc, holds x h0 (FFixed k (AAcc g s e cc)) -> c = Some (full (AAcc g s e false))).
Lemma reads_own : forall x k h0 h1 c, own_means x k h0 h1 c -> reads x k c h0.
Proof. intros x k h0 h1 c OM. split; intros; [eapply own_ro | eapply own_acc]; eassumption. Qed.
Lemma reads_base : forall x k h o, nth_error h x = Some o -> reads x k (option_map desc_of (look o k)) h.
Proof. intros x k h o N. eapply reads_own. apply base_own_means. exact N. Qed.

Lemma get_ok : forall t k, valid_key k -> okm (get_of t k) (fun h0 h1 v => means (bottom t) (OGet k v) h0 h1).
Proof.
  intros t k V. induction t as [x|p t IH]; cbn [get_of bottom].
  - apply okm_obj. intros o h0 N OI K. rewrite (get_own_look o k OI V). eapply okp_bind; [apply okm_from|]. intro c.
    pose proof (reads_base x k h0 o N) as [RD RA].
    assert (X : forall h1 v, option_map desc_of (look o k) = c -> match c with Some d => (if is_data d then v = or_undef (d_val d) else or_undef (d_get d) = Undef -> v = Undef) | None => True end -> means x (OGet k v) h0 h1).
    { intros h1 v <- R. constructor; inv_obs.
      - intro H. rewrite (RD _ _ _ H) in R. cbn in R. congruence.
      - intro H. rewrite (RA _ _ _ _ H) in R. cbn in R. auto. }
    destruct c as [d|].
    + destruct (is_data d) eqn:ID.
      * apply okp_ret. intros h1 (h & -> & E & [-> C]). apply X; [congruence | auto].
      * assert (Y : okp (fun h1 => exists h, h = h0 /\ hevolves h h1 /\ h1 = h /\ SOk (option_map desc_of (look o k)) = SOk (Some d)) (let! a := ask in match a with Val v => ret v | _ => stop end)
                     (fun v h1 => or_undef (d_get d) <> Undef -> means x (OGet k v) h0 h1)).
        { eapply okp_bind; [apply okm_ask|]. intro a. destruct a; try apply okp_stop. apply okp_ret. intros h1 (h & (h' & -> & _ & [-> C]) & _) NU. apply X; [congruence | intro; contradiction]. }
        destruct (or_undef (d_get d)) eqn:OU; try (intros st G; specialize (Y st G); destruct (mbind ask _ st); [|exact Y|exact I]; destruct Y as (Y1 & Y2 & Y3); split; [exact Y1|]; split; [exact Y2|]; intros L P; apply Y3; [exact L | exact P | discriminate]).
        apply okp_ret. intros h1 (h & -> & E & [-> C]). apply X; [congruence | auto].
    + destruct (proto o) as [q|].
      * eapply okp_bind; [apply okm_ask|]. intro a. destruct a; try apply okp_stop. apply okp_ret. intros h1 (h & (h' & -> & _ & [-> C]) & _). apply X; [congruence | exact I].
      * apply okp_ret. intros h1 (h & -> & E & [-> C]). apply X; [congruence | exact I].
  - apply okm_trap; [apply means_left | apply IH|]. intros a _. destruct a as [| | |v| | | | | |]; try (intro; apply okp_stop).
    apply (okm_bind _ _ _ (fun h0 b h1 => means (bottom t) (OGet k b) h0 h1) (get_own_ok t k V)). intros c h0.
    assert (X : forall h1 h, own_means (bottom t) k h0 h c -> match c with Some cd => flag (d_cf cd) = false -> is_data cd && negb (flag (d_wr cd)) && negb (val_eqb v (or_undef (d_val cd))) = false /\ is_acc cd && val_eqb (or_undef (d_get cd)) Undef && negb (val_eqb v Undef) = false | None => True end -> means (bottom t) (OGet k v) h0 h1).
    { intros h1 h OM R. destruct (reads_own _ _ _ _ _ OM) as [RD RA]. constructor; inv_obs.
      - intro H. rewrite (RD _ _ _ H) in R. destruct (R eq_refl) as [R1 _]. cbn in R1. apply negb_false_iff in R1. match goal with B : ?v <> ?w |- _ => destruct (val_eqb_spec v w); congruence end.
      - intro H. rewrite (RA _ _ _ _ H) in R. destruct (R eq_refl) as [_ R1]. cbn in R1. apply negb_false_iff in R1. match goal with B : ?v <> Undef |- _ => destruct (val_eqb_spec v Undef); congruence end. }
    destruct c as [cd|]; [|apply okp_ret; intros h1 [E OM]; eapply X; [exact OM | exact I]].
    destruct (flag (d_cf cd)) eqn:CF; [apply okp_ret; intros h1 [E OM]; eapply X; [exact OM | congruence]|].
    destruct (is_data cd && negb (flag (d_wr cd)) && negb (val_eqb v (or_undef (d_val cd)))) eqn:D1; [apply okp_throw|].
    destruct (is_acc cd && val_eqb (or_undef (d_get cd)) Undef && negb (val_eqb v Undef)) eqn:D2; [apply okp_throw|].
    apply okp_ret. intros h1 [E OM]. eapply X; [exact OM | auto].
Qed.

(** ** [[Set]] *)
Lemma okm_true : forall {A} (m : M A) Q, okm m Q -> okm m (fun _ _ _ => True).
Proof. intros A m Q H. eapply okm_weaken; [exact H | auto]. Qed.
Lemma okp_true : forall {A} P (m : M A) Q, okm m Q -> okp P m (fun _ _ => True).
Proof. intros A P m Q H. eapply okp_okm; [exact H | auto]. Qed.
Lemma set_recv_ok : forall rcv k v cv w, valid_key k -> okm (set_recv rcv k v cv w) (fun _ _ b => w = false -> b = false).
Proof.
  intros rcv k v cv w V h0. unfold set_recv. destruct w; cbn [negb]; [|apply okp_ret; auto]. destruct rcv as [r|]; [|apply okp_ret; auto].
  eapply okp_bind; [apply get_own_ok; exact V|]. intro c.
  assert (X : forall d P, wf_desc d -> okp P (define_of r k d cv) (fun a _ => true = false -> a = false)).
  { intros d P W. eapply okp_okm; [apply define_ok; assumption|]. intros; discriminate. }
  destruct c as [ed|]; [|apply X; left; split; reflexivity]. destruct (is_acc ed); [apply okp_ret; auto|]. destruct (negb (flag (d_wr ed))); [apply okp_ret; auto|].
  apply X. left. split; reflexivity.
Qed.
Lemma set_ok : forall t k v rcv cv, valid_key k -> okm (set_of t k v rcv cv) (fun h0 h1 b => means (bottom t) (OSet k v b) h0 h1).
Proof.
  intros t k v rcv cv V. induction t as [x|p t IH]; cbn [set_of bottom].
  - apply okm_obj. intros o h0 N OI K. rewrite (get_own_look o k OI V). eapply okp_bind; [apply okm_from|]. intro c.
    pose proof (reads_base x k h0 o N) as [RD RA].
    assert (X : forall h1 b, option_map desc_of (look o k) = c -> (b = true -> match c with Some d => (if is_data d then flag (d_wr d) = true else or_undef (d_set d) <> Undef) | None => True end) -> means x (OSet k v b) h0 h1).
    { intros h1 b <- R. constructor; inv_obs.
      - intro H. specialize (R eq_refl). rewrite (RD _ _ _ H) in R. cbn in R. discriminate.
      - intro H. specialize (R eq_refl). rewrite (RA _ _ _ _ H) in R. cbn in R. congruence. }
    destruct c as [d|].
    + destruct (is_data d) eqn:ID.
      * eapply okp_okm; [apply set_recv_ok; exact V|]. cbn beta. intros b h h1 (h' & -> & E & [-> C]) E2 R. apply X; [congruence|]. intros ->.
        destruct (flag (d_wr d)); [reflexivity | discriminate (R eq_refl)].
      * assert (Y : okp (fun h1 => exists h, h = h0 /\ hevolves h h1 /\ h1 = h /\ SOk (option_map desc_of (look o k)) = SOk (Some d)) (let! a := ask in match a with Val _ => ret true | _ => stop end)
                     (fun b h1 => or_undef (d_set d) <> Undef -> means x (OSet k v b) h0 h1)).
        { eapply okp_bind; [apply okm_ask|]. intro a. destruct a; try apply okp_stop. apply okp_ret. intros h1 (h & (h' & -> & _ & [-> C]) & _) NU. apply X; [congruence | auto]. }
        destruct (or_undef (d_set d)) eqn:OU; try (intros st G; specialize (Y st G); destruct (mbind ask _ st); [|exact Y|exact I]; destruct Y as (Y1 & Y2 & Y3); split; [exact Y1|]; split; [exact Y2|]; intros L P; apply Y3; [exact L | exact P | discriminate]).
        apply okp_ret. intros h1 (h & -> & E & [-> C]). apply X; [congruence | discriminate].
    + assert (Y : forall P : heap -> Prop, (forall h, P h -> option_map desc_of (look o k) = None) -> okp P (set_recv rcv k v cv true) (fun a h1 => means x (OSet k v a) h0 h1)).
      { intros P HP. eapply okp_okm; [apply set_recv_ok; exact V|]. cbn beta. intros b h h1 H _ _. apply X; [apply (HP h H) | auto]. }
      destruct (proto o) as [q|].
      * eapply okp_bind; [apply okm_ask|]. intro a. destruct a; try apply okp_stop.
        -- apply okp_ret. intros h1 (h & (h' & -> & _ & [-> C]) & _). apply X; [congruence | auto].
        -- apply Y. intros h1 (h & (h' & -> & _ & [-> C]) & _). congruence.
      * apply Y. intros h1 (h & -> & E & [-> C]). congruence.
  - apply okm_trap; [apply means_left | apply IH|]. intros a _. destruct a as [| |b| | | | | | |]; try (intro; apply okp_stop).
    destruct b; [|intro; apply okp_ret; intros h ->; constructor; inv_obs].
    apply (okm_bind _ _ _ (fun h0 b h1 => means (bottom t) (OSet k v b) h0 h1) (get_own_ok t k V)). intros c h0.
    assert (X : forall h1 h, own_means (bottom t) k h0 h c -> match c with Some cd => flag (d_cf cd) = false -> is_data cd && negb (flag (d_wr cd)) && negb (val_eqb v (or_undef (d_val cd))) = false /\ is_acc cd && val_eqb (or_undef (d_set cd)) Undef = false | None => True end -> means (bottom t) (OSet k v true) h0 h1).
    { intros h1 h OM R. destruct (reads_own _ _ _ _ _ OM) as [RD RA]. constructor; inv_obs.
      - intro H. rewrite (RD _ _ _ H) in R. destruct (R eq_refl) as [R1 _]. cbn in R1. apply negb_false_iff in R1. match goal with B : ?v <> ?w |- _ => destruct (val_eqb_spec v w); congruence end.
      - intro H. rewrite (RA _ _ _ _ H) in R. destruct (R eq_refl) as [_ R1]. cbn in R1. discriminate. }
    destruct c as [cd|]; [|apply okp_ret; intros h1 [E OM]; eapply X; [exact OM | exact I]].
    destruct (flag (d_cf cd)) eqn:CF; [apply okp_ret; intros h1 [E OM]; eapply X; [exact OM | congruence]|].
    destruct (is_data cd && negb (flag (d_wr cd)) && negb (val_eqb v (or_undef (d_val cd)))) eqn:D1; [apply okp_throw|].
    destruct (is_acc cd && val_eqb (or_undef (d_set cd)) Undef) eqn:D2; [apply okp_throw|].
    apply okp_ret. intros h1 [E OM]. eapply X; [exact OM | auto].
Qed.

(** ** [[Delete]] *)
Lemma delete_ok : forall t k, valid_key k -> okm (delete_of t k) (fun h0 h1 b => means (bottom t) (ODelete k b) h0 h1).
Proof.
  intros t k V. induction t as [x|p t IH]; cbn [delete_of bottom].
  - apply okm_obj. intros o h0 N OI K. eapply okp_okm; [apply okm_op; exact V|]. cbn beta. intros b h h1 -> E [HI ST].
    cbn [o_step] in ST. rewrite N in ST. unfold upd_obj in ST. destruct (o_delete_good o k OI V) as (o' & r & ED & GD & _ & DT & DR). rewrite ED in ST. cbn in ST. injection ST as <- ER.
    constructor; inv_obs.
    + intros (o2 & N' & q & L & C). rewrite N in N'. injection N' as <-. specialize (DR K). rewrite L, C in DR. discriminate.
    + intros (o2 & N' & EX). rewrite N in N'. injection N' as <-. exists o'. split; [apply put_same; eapply nth_lt; exact N|]. split; [rewrite (g_ext _ _ _ GD); exact EX | apply DT; reflexivity].
  - apply okm_trap; [apply means_left | apply IH|]. intros a _. destruct a as [| |b| | | | | | |]; try (intro; apply okp_stop).
    destruct b; [|intro; apply okp_ret; intros h ->; constructor; inv_obs].
    apply (okm_bind _ _ _ (fun h0 b h1 => means (bottom t) (ODelete k b) h0 h1) (get_own_ok t k V)). intros c h0. destruct c as [cd|].
    + destruct (flag (d_cf cd)) eqn:CF; cbn [negb]; [|apply okp_throw]. eapply okp_bind; [apply okm_truth; apply is_ext_ok|]. intro e. destruct e; [|apply okp_throw].
      apply okp_ret. intros h2 (h1 & [E1 OM] & E2 & ME). constructor; inv_obs.
      * intro P. destruct (own_present _ _ _ _ _ OM P) as (a & EQ & NC). injection EQ as ->. apply full_nonconf in NC. congruence.
      * intro NE. exfalso. apply (ext_true_no _ _ _ h0 FNonExt ME E1); auto.
    + apply okp_ret. intros h1 [E1 OM]. constructor; inv_obs.
      * intro P. destruct (own_present _ _ _ _ _ OM P) as (? & ? & _). discriminate.
      * intro NE. apply (m_nonext _ _ _ _ (proj1 OM) (FAbsent k) (tn_own k) NE).
Qed.

(** ** [[OwnPropertyKeys]] *)
Lemma get_own_any : forall t k, okm (get_own_of t k) (fun h0 h1 c => valid_key k -> own_means (bottom t) k h0 h1 c).
Proof.
  intros t k. assert (D : valid_key k \/ ~ valid_key k).
  { destruct k as [i|n]; [|left; exact I]. cbn. unfold valid_index. destruct (Z.leb_spec 0 i), (Z.ltb_spec i (2 ^ 32 - 1)%Z); try (right; lia); left; lia. }
  destruct D as [V | NV]; [eapply okm_weaken; [apply get_own_ok; exact V | auto]|].
  apply (okm_weaken _ (fun _ _ _ => True)); [|intros; contradiction].
  induction t as [x|p t IH]; cbn [get_own_of].
  - apply okm_obj. intros o h0 N OI K. eapply okp_true. apply okm_from.
  - apply okm_trap; [intros ? ? ? ? ? ?; exact I | exact IH|]. intros a _. destruct a as [| | |v| | | | | |]; try (intro; apply okp_stop).
    + destruct v; try (intro; apply okp_stop). intro h0. eapply okp_bind; [exact IH|]. intro c. destruct c as [cd|]; [|apply okp_ret; auto].
      destruct (negb (flag (d_cf cd))); [apply okp_throw|]. eapply okp_bind; [apply is_ext_ok|]. intro e. destruct e; [apply okp_ret; auto | apply okp_throw].
    + intro h0. eapply okp_bind; [exact IH|]. intro c. eapply okp_bind; [apply is_ext_ok|]. intro e. eapply okp_bind; [apply okm_ask|]. intro b. destruct b; try apply okp_stop.
      destruct (is_acc d && is_data d); [apply okp_throw|]. destruct (negb (compatible e (complete d) c)); [apply okp_throw|].
      destruct (negb (flag (d_cf (complete d)))); [|apply okp_ret; auto]. destruct c as [cd|]; [|apply okp_throw]. destruct (flag (d_cf cd)); [apply okp_throw|].
      match goal with |- okp _ (if ?b then _ else _) _ => destruct b; [apply okp_throw | apply okp_ret; auto] end.
    + intro. apply okp_throw.
Qed.
Definition classed (x : nat) (ks : list key) (h0 : heap) (y : list key * list key) : Prop :=
  (forall k, In k ks <-> In k (fst y) \/ In k (snd y)) /\ (Forall valid_key ks -> forall k, In k ks -> holds x h0 (FPinned k) -> In k (fst y)).
Lemma classify_ok : forall t ks, okm (classify t ks) (fun h0 _ y => classed (bottom t) ks h0 y).
Proof.
  intros t ks. induction ks as [|k r IH]; cbn [classify].
  - intro h0. apply okp_ret. intros h _. split; [intro j; cbn; tauto | intros _ j []].
  - apply (okm_bind _ _ _ (fun h0 y _ => classed (bottom t) (k :: r) h0 y) (get_own_any t k)). intros c h0. eapply okp_bind; [exact IH|]. intro y.
    apply okp_ret. intros h2 (h1 & [E OM] & E2 & [C1 C2]).
    assert (P : match c with Some cd => flag (d_cf cd) = true | None => True end -> valid_key k -> ~ holds (bottom t) h0 (FPinned k)).
    { intros HC V H. destruct (own_present _ _ _ _ _ (OM V) H) as (a & -> & NC). apply full_nonconf in NC. congruence. }
    assert (Q : forall V : Forall valid_key (k :: r), forall j, In j r -> holds (bottom t) h0 (FPinned j) -> In j (fst y)).
    { intros V j H HP. apply C2; [inversion V; assumption | exact H | eapply holds_mono; eassumption]. }
    destruct c as [cd|]; [destruct (flag (d_cf cd)) eqn:CF; cbn [negb]|]; split; cbn [fst snd].
    + intro j. cbn. rewrite C1. tauto.
    + intros V j [-> | H] HP; [exfalso; apply (P eq_refl); [inversion V; assumption | exact HP] | apply Q; assumption].
    + intro j. cbn. rewrite C1. tauto.
    + intros V j [-> | H] HP; [left; reflexivity | right; apply Q; assumption].
    + intro j. cbn. rewrite C1. tauto.
    + intros V j [-> | H] HP; [exfalso; apply (P I); [inversion V; assumption | exact HP] | apply Q; assumption].
Qed.
Lemma key_eqb_refl : forall k, key_eqb k k = true.
Proof. intro k. destruct (key_eqb_spec k k); congruence. Qed.
Lemma kmem_in : forall k l, kmem k l = true <-> In k l.
Proof.
  intros k l. unfold kmem. rewrite existsb_exists. split.
  - intros (j & H & E). destruct (key_eqb_spec k j) as [-> | N]; [exact H | discriminate].
  - intro H. exists k. split; [exact H | apply key_eqb_refl].
Qed.
Lemma mem_dec : forall k (l : list key), In k l \/ ~ In k l.
Proof. intros k l. rewrite <- kmem_in. destruct (kmem k l); auto. Qed.
Lemma take_out_spec : forall ks l l', take_out ks l = Some l' -> (forall k, In k ks -> In k l) /\ (forall j, In j l' <-> In j l /\ ~ In j ks).
Proof.
  induction ks as [|k r IH]; intros l l' H; cbn [take_out] in H.
  - injection H as <-. split; [intros k []|]. intro j. cbn. tauto.
  - destruct (kmem k l) eqn:M; [|discriminate]. apply kmem_in in M. destruct (IH _ _ H) as [I1 I2]. split.
    + intros j [-> | J]; [exact M|]. specialize (I1 j J). apply filter_In in I1. apply I1.
    + intro j. rewrite I2, filter_In. cbn [In]. destruct (key_eqb_spec k j) as [-> | N]; cbn [negb]; [split; [intros [[_ X] _]; discriminate | tauto]|].
      split; [tauto|]. intros [A B]. split; [split; [exact A | reflexivity] | tauto].
Qed.
Lemma has_dup_nodup : forall l, has_dup l = false <-> NoDup l.
Proof.
  induction l as [|k r IH]; cbn [has_dup]; [split; [constructor | reflexivity]|]. rewrite orb_false_iff, IH. split.
  - intros [M N]. constructor; [|exact N]. intro H. apply kmem_in in H. congruence.
  - intro H. inversion H; subst. split; [|assumption]. destruct (kmem k r) eqn:M; [|reflexivity]. apply kmem_in in M. contradiction.
Qed.
Definition keys_mean (x : nat) (h0 h1 : heap) (ks : list key) : Prop := means x (OKeys ks) h0 h1 /\ NoDup ks /\ Forall valid_key ks.
Lemma keys_left : forall x, left_mono (keys_mean x).
Proof. intros x h0 h1 h2 ks E [M N]. split; [|exact N]. eapply means_mono; [exact E | apply hev_refl | exact M]. Qed.
Lemma keys_ok : forall t, okm (keys_of t) (keys_mean (bottom t)).
Proof.
  induction t as [x|p t IH]; cbn [keys_of bottom].
  - apply okm_obj. intros o h0 N OI K. pose proof (oi_base o OI) as B. destruct (own_keys_all o B) as (ks & E & ND & IN). rewrite E.
    eapply okp_okm; [apply okm_from|]. cbn beta. intros a h h1 -> EV [-> EQ]. injection EQ as <-. split; [|split; [exact ND|]].
    + constructor; inv_obs; intros (o' & N' & H'); rewrite N in N'; injection N' as <-.
      * destruct H' as [_ L]. match goal with A : In _ _ |- _ => apply IN in A; contradiction end.
      * destruct H' as (q & L & _). match goal with A : ~ In _ _ |- _ => apply A; apply IN; congruence end.
      * exists o. split; [exact N|]. split; [exact H'|]. destruct (look o k) eqn:L; [|reflexivity]. match goal with A : ~ In _ _ |- _ => exfalso; apply A; apply IN; congruence end.
    + apply Forall_forall. intros k Hk. apply (look_valid o); [exact B | apply IN; exact Hk].
  - apply okm_trap; [apply keys_left | apply IH|]. intros a OA. destruct a as [| | | | | | |ks| |]; try (intro; apply okp_stop); [|intro; apply okp_throw]. cbn [ans_ok] in OA.
    destruct (has_dup ks) eqn:HD; [intro; apply okp_throw|]. apply has_dup_nodup in HD.
    apply (okm_bind _ _ _ (fun h0 y h1 => keys_mean (bottom t) h0 h1 y) (is_ext_ok t)). intros e h0. eapply okp_bind; [exact IH|]. intro tks. eapply okp_bind; [apply classify_ok|]. intros [ncfg cfg].
    assert (X : (e = true \/ exists l, (forall k, In k ncfg -> In k ks) /\ (forall j, In j l <-> In j ks /\ ~ In j ncfg) /\ take_out cfg l = Some []) -> (forall k, In k ncfg -> In k ks) ->
      okp (fun h1 => exists h, (exists h2, (hevolves h0 h2 /\ means (bottom t) (OExt e) h0 h2) /\ hevolves h2 h /\ keys_mean (bottom t) h2 h tks) /\ hevolves h h1 /\ classed (bottom t) tks h (ncfg, cfg)) (ret ks) (fun y h1 => keys_mean (bottom t) h0 h1 y)).
    { intros HE HN. apply okp_ret. intros h3 (h2 & (h1 & [E1 ME] & E2 & [MK [ND VK]]) & E3 & [C1 C2]). cbn [fst snd] in *. split; [|auto].
      assert (NE : holds (bottom t) h0 FNonExt -> forall k, In k ks <-> In k tks).
      { intros H k. destruct HE as [-> | (l & L1 & L2 & T)]; [destruct (m_no _ _ _ _ ME FNonExt c_ext H)|]. destruct (take_out_spec _ _ _ T) as [T1 T2].
        rewrite C1. split.
        - intro K. destruct (mem_dec k ncfg) as [I1 | N1]; [left; exact I1|].
          destruct (mem_dec k cfg) as [I2 | N2]; [right; exact I2|].
          exfalso. apply (in_nil (a := k)). apply T2. split; [apply L2; auto | exact N2].
        - intros [I1 | I2]; [apply L1; exact I1|]. specialize (T1 k I2). apply L2 in T1. apply T1. }
      constructor; inv_obs.
      - intro A. pose proof (NE (absent_nonext _ _ _ A) k) as Y. apply (m_no _ _ _ _ MK (FAbsent k)); [apply c_listed; apply Y; assumption | eapply holds_mono; eassumption].
      - intro P. assert (IT : In k tks).
        { destruct (kmem k tks) eqn:KM; [apply kmem_in; exact KM|]. exfalso. apply (m_no _ _ _ _ MK (FPinned k)); [apply c_unlisted; intro Z; apply kmem_in in Z; congruence | eapply holds_mono; eassumption]. }
        match goal with A : ~ In _ _ |- _ => apply A end. apply HN. apply C2; [exact VK | exact IT|]. eapply holds_mono; [eapply hevolves_trans; [exact E1 | exact E2] | exact P].
      - intro H. eapply holds_mono; [exact E3|]. apply (m_nonext _ _ _ _ MK (FAbsent k)); [|eapply holds_mono; eassumption]. apply tn_keys. rewrite <- (NE H). assumption. }
    destruct (e && match ncfg with [] => true | _ :: _ => false end) eqn:EN.
    + apply andb_true_iff in EN. destruct EN as [-> EN]. destruct ncfg; [|discriminate]. apply X; [auto | intros ? []].
    + destruct (take_out ncfg ks) as [l|] eqn:T; [|apply okp_throw]. destruct (take_out_spec _ _ _ T) as [T1 T2]. destruct e; [apply X; auto|].
      destruct (take_out cfg l) as [[|]|] eqn:T3; [|apply okp_throw|apply okp_throw]. apply X; [right; exists l; auto | exact T1].
Qed.

(** ** traces *)
Lemma okm_map : forall {A} (f : A -> obs) (m : M A) x Q, okm m Q -> (forall h0 h1 a, Q h0 h1 a -> means x (f a) h0 h1) -> okm (map_m f m) (fun h0 h1 o => means x o h0 h1).
Proof.
  intros A f m x Q H I. unfold map_m. apply (okm_bind _ _ _ (fun h0 o h1 => means x o h0 h1) H). intros a h0. apply okp_ret. intros h [_ q]. apply I. exact q.
Qed.
Lemma step_means : forall t op, pop_ok op -> okm (p_step t op) (fun h0 h1 o => means (bottom t) o h0 h1).
Proof.
  intros t op W. destruct op; cbn [p_step pop_ok] in *.
  - eapply okm_map; [apply get_proto_ok | auto].
  - eapply okm_map; [apply set_proto_ok | auto].
  - eapply okm_map; [apply is_ext_ok | auto].
  - eapply okm_map; [apply prevent_ok | auto].
  - eapply okm_map; [apply get_own_ok; exact W | intros h0 h1 a [M _]; exact M].
  - eapply okm_map; [apply define_ok; apply W | auto].
  - eapply okm_map; [apply has_ok; exact W | auto].
  - eapply okm_map; [apply get_ok; exact W | auto].
  - eapply okm_map; [apply set_ok; exact W | auto].
  - eapply okm_map; [apply delete_ok; exact W | auto].
  - eapply okm_map; [apply keys_ok | intros h0 h1 a [M _]; exact M].
  - intros h0 s [HI EV]. destruct (o_run (hp s) ops) as [h| |] eqn:E; [|exact I|exact I]. destruct (run_hinv _ _ _ HI W E) as [H1 H2].
    split; [split; assumption|]. split; [split; [exact H2 | auto]|]. intros _ _. constructor; inv_obs.
Qed.
Lemma step_keys : forall t op ks s s', Good s -> p_step t op s = Ret (OKeys ks) s' -> lost s' = false -> NoDup ks.
Proof.
  intros t op ks s s' G H L. pose proof (keys_ok t (hp s) s G) as K. destruct op; cbn [p_step] in H; unfold map_m, mbind in H;
    match type of H with (match ?m with _ => _ end) = _ => destruct m as [a s2|s2|]; cbn in H; try discriminate end.
  injection H as <- <-. destruct K as (_ & _ & K). apply (K L eq_refl).
Qed.
Lemma run_means : forall t ops s s' log, Forall pop_ok ops -> Good s -> p_run t s ops = Some (s', log) -> lost s' = false ->
  forall past, (forall F, knows past F -> holds (bottom t) (hp s) F) ->
  (forall l1 o l2, log = l1 ++ o :: l2 -> forall F, knows (past ++ l1) F -> ~ contradicts o F) /\ (forall ks, In (OKeys ks) log -> NoDup ks).
Proof.
  intros t ops. induction ops as [|op r IH]; intros s s' log W G H L past HK; cbn [p_run] in H.
  - injection H as <- <-. split; [intros [|? ?] ? ? E; discriminate | intros ks []].
  - inversion W as [|? ? W1 W2]; subst. pose proof (step_means t op W1 (hp s) s G) as ST. pose proof (step_keys t op) as SK.
    assert (LM : forall s1 l, p_run t s1 r = Some (s', l) -> Good s1 -> lost s1 = false).
    { clear - L W2. revert W2. induction r as [|o r IH]; intros W2 s1 l H G; cbn [p_run] in H; [injection H as <- <-; exact L|]. inversion W2; subst.
      pose proof (step_means t o ltac:(assumption) (hp s1) s1 G) as ST. destruct (p_step t o s1) as [a s2|s2|]; [| |discriminate].
      - destruct (p_run t s2 r) as [[s3 l3]|] eqn:E; [|discriminate]. injection H as <- <-. destruct ST as (G2 & [_ A2] & _). specialize (IH ltac:(assumption) _ _ E G2).
        destruct (lost s1); [rewrite A2 in IH; auto | reflexivity].
      - destruct ST as (G2 & [_ A2]). specialize (IH ltac:(assumption) _ _ H G2). destruct (lost s1); [rewrite A2 in IH; auto | reflexivity]. }
    destruct (p_step t op s) as [o s1|s1|] eqn:E; [| |discriminate].
    + destruct ST as (G1 & [E1 _] & MS). destruct (p_run t s1 r) as [[s2 l]|] eqn:R; [|discriminate]. injection H as <- <-. pose proof (LM _ _ R G1) as L1. specialize (MS L1 eq_refl).
      assert (HK' : forall F, knows (past ++ [o]) F -> holds (bottom t) (hp s1) F).
      { intros F K. inversion K as [l0 o0 F0 T EQ|l0 o0 F0 KN T EQ|l0 o0 F0 KN EQ]; subst; apply app_inj_tail in EQ; destruct EQ as [-> ->].
        - apply (m_yes _ _ _ _ MS). exact T.
        - apply (m_nonext _ _ _ _ MS); [exact T | apply HK; exact KN].
        - eapply holds_mono; [exact E1 | apply HK; exact KN]. }
      destruct (IH s1 s2 l W2 G1 R L (past ++ [o]) HK') as [I1 I2]. split.
      * intros l1 o1 l2 EQ F K. destruct l1 as [|o2 l1]; injection EQ as -> EQ.
        -- rewrite app_nil_r in K. intro C. exact (m_no _ _ _ _ MS F C (HK F K)).
        -- apply (I1 l1 o1 l2 EQ F). rewrite <- app_assoc. exact K.
      * intros ks [-> | IN]; [exact (SK ks s s1 G E L1) | apply I2; exact IN].
    + destruct ST as (G1 & [E1 _]). apply (IH s1 s' log W2 G1 H L past). intros F K. eapply holds_mono; [exact E1 | auto].
Qed.
Lemma good_start : forall ops h rv es lo, Forall op_ok ops -> o_run [] ops = Done h -> Forall ev_ok es -> Good {| hp := h; revoked := rv; evs := es; lost := lo |}.
Proof. intros ops h rv es lo O E V. split; [|exact V]. eapply run_hinv; [apply empty_hinv | exact O | exact E]. Qed.
Theorem invariants : forall ops0 h rv es t ops s' log, Forall op_ok ops0 -> o_run [] ops0 = Done h -> Forall ev_ok es -> Forall pop_ok ops ->
  p_run t {| hp := h; revoked := rv; evs := es; lost := false |} ops = Some (s', log) -> lost s' = false -> consistent log /\ keys_distinct log.
Proof.
  intros ops0 h rv es t ops s' log O E V W R L. pose proof (good_start ops0 h rv es false O E V) as G.
  destruct (run_means t ops _ s' log W G R L [] ltac:(intros F K; inversion K as [? ? ? ? EQ|? ? ? ? ? EQ|? ? ? ? EQ]; destruct l; discriminate)) as [I1 I2].
  split; [exact I1 | exact I2].
Qed.

(** ** a proxy of an object loses no exception *)
Definition keeps {A} (m : M A) : Prop := forall s, match m s with Ret _ s' => lost s' = lost s | Thrown s' => lost s' = lost s | Stop => True end.
Definition quiet {A} (m : M A) : Prop := forall s, match m s with Ret _ s' => lost s' = lost s | Thrown s' => False | Stop => True end.
Lemma keeps_bind : forall {A B} (m : M A) (f : A -> M B), keeps m -> (forall a, keeps (f a)) -> keeps (mbind m f).
Proof.
  intros A B m f Hm Hf s. unfold mbind. specialize (Hm s). destruct (m s) as [a s1|s1|]; [|exact Hm|exact I]. specialize (Hf a s1). destruct (f a s1); try exact I; congruence.
Qed.
Lemma keeps_ret : forall {A} (a : A), keeps (ret a).
Proof. intros A a s. reflexivity. Qed.
Lemma keeps_throw : forall {A}, keeps (@throw A).
Proof. intros A s. reflexivity. Qed.
Lemma keeps_stop : forall {A}, keeps (@stop A).
Proof. intros A s. exact I. Qed.
Lemma keeps_ask : keeps ask.
Proof. intro s. unfold ask. destruct (evs s); [exact I|]. destruct (o_run _ _); try exact I. destruct (e_ans e); reflexivity. Qed.
Lemma keeps_truth : forall m, quiet m -> keeps (truth m).
Proof. intros m Q s. specialize (Q s). unfold truth. destruct (m s); [exact Q | contradiction | exact I]. Qed.
Lemma keeps_obj : forall x, keeps (the_obj x).
Proof. intros x s. unfold the_obj. destruct (nth_error (hp s) x) as [o|]; [|exact I]. destruct (kind o); reflexivity || exact I. Qed.
Lemma keeps_from : forall {A} (r : sres A), keeps (from_sres r).
Proof. intros A r s. unfold from_sres. destruct r; reflexivity || exact I. Qed.
Lemma keeps_op : forall op, keeps (do_op op).
Proof. intros op s. unfold do_op. destruct (o_step (hp s) op) as [[h r]| |]; try exact I. destruct r; reflexivity || exact I. Qed.
Lemma quiet_ext : forall x, quiet (is_ext (TObj x)).
Proof. intros x s. cbn. unfold mbind, the_obj. destruct (nth_error (hp s) x) as [o|]; [|exact I]. destruct (kind o); reflexivity || exact I. Qed.
Lemma keeps_trap : forall {A} p (f : M A) k, keeps f -> (forall a, keeps (k a)) -> keeps (with_trap p f k).
Proof.
  intros A p f k Hf Hk. unfold with_trap. apply keeps_bind; [intro s; reflexivity|]. intros []; [apply keeps_throw|]. apply keeps_bind; [apply keeps_ask|]. intros []; auto.
Qed.
Inductive shallow : tgt -> Prop := sh_obj : forall x, shallow (TObj x) | sh_proxy : forall p x, shallow (TProxy p (TObj x)).
Ltac keep := repeat first
  [ apply keeps_ret | apply keeps_throw | apply keeps_stop | apply keeps_ask | apply keeps_obj | apply keeps_from | apply keeps_op
  | apply keeps_truth; apply quiet_ext
  | apply keeps_trap; [|intro] | apply keeps_bind; [|intro]
  | progress cbn beta
  | match goal with |- keeps (match ?x with _ => _ end) => destruct x end ].
Lemma keeps_is_ext : forall t, shallow t -> keeps (is_ext t).
Proof. intros t [x|p x]; cbn [is_ext]; keep. Qed.
Lemma keeps_get_own : forall t k, shallow t -> keeps (get_own_of t k).
Proof. intros t k [x|p x]; cbn [get_own_of is_ext]; keep. Qed.
Lemma keeps_define : forall t k d cv, shallow t -> keeps (define_of t k d cv).
Proof. intros t k d cv [x|p x]; cbn [define_of get_own_of is_ext]; keep. Qed.
Lemma keeps_classify : forall x ks, keeps (classify (TObj x) ks).
Proof. intros x ks. induction ks as [|k r IH]; cbn [classify get_own_of]; [apply keeps_ret|]. apply keeps_bind; [keep|]. intro c. apply keeps_bind; [exact IH|]. intro y. apply keeps_ret. Qed.
Lemma keeps_recv : forall rcv k v cv w, (forall r, rcv = Some r -> shallow r) -> keeps (set_recv rcv k v cv w).
Proof.
  intros rcv k v cv w S. unfold set_recv. destruct (negb w); [apply keeps_ret|]. destruct rcv as [r|]; [|apply keeps_ret]. specialize (S r eq_refl).
  apply keeps_bind; [apply keeps_get_own; exact S|]. intros [ed|]; [|apply keeps_define; exact S]. destruct (is_acc ed); [apply keeps_ret|]. destruct (negb (flag (d_wr ed))); [apply keeps_ret | apply keeps_define; exact S].
Qed.
Definition shallow_op (op : pop) : Prop := match op with PSet _ _ (Some r) _ => shallow r | _ => True end.
Lemma keeps_step : forall t op, shallow t -> shallow_op op -> keeps (p_step t op).
Proof.
  intros t op S SO. destruct op; cbn [p_step shallow_op] in *; try (unfold map_m; apply keeps_bind; [|intro; apply keeps_ret]).
  - destruct S; cbn [get_proto is_ext]; keep.
  - destruct S; cbn [set_proto_of get_proto is_ext]; keep.
  - apply keeps_is_ext; exact S.
  - destruct S; cbn [prevent is_ext]; keep.
  - apply keeps_get_own; exact S.
  - apply keeps_define; exact S.
  - destruct S; cbn [has_of get_own_of]; keep.
  - destruct S; cbn [get_of get_own_of]; keep.
  - assert (R : forall w, keeps (set_recv rcv k v cv w)) by (intro w; apply keeps_recv; intros r ->; exact SO).
    destruct S; cbn [set_of get_own_of]; repeat first [apply R | progress keep].
  - destruct S; cbn [delete_of get_own_of]; keep.
  - destruct S; cbn [keys_of is_ext]; repeat first [apply keeps_classify | progress keep].
  - intro s. destruct (o_run _ _); try exact I. reflexivity.
Qed.
Lemma keeps_run : forall t ops s s' log, shallow t -> Forall shallow_op ops -> p_run t s ops = Some (s', log) -> lost s' = lost s.
Proof.
  intros t ops. induction ops as [|op r IH]; intros s s' log S SO H; cbn [p_run] in H; [injection H as <- <-; reflexivity|].
  inversion SO; subst. pose proof (keeps_step t op S ltac:(assumption) s) as K. destruct (p_step t op s) as [o s1|s1|]; [| |discriminate].
  - destruct (p_run t s1 r) as [[s2 l]|] eqn:R; [|discriminate]. injection H as <- <-. rewrite <- K. eapply IH; eassumption.
  - rewrite <- K. eapply IH; eassumption.
Qed.
