(** Evaluation of modules without top level await: the depth first search of
    ModDfs instantiated. *)

From Coq Require Import ZArith List Bool Arith Lia Relations Sorted.
From Verif Require Import ModModel ModSpec ModDfs ModLink.
Import ListNotations.

(** The modules started according to the log, the latest first. *)
Definition sta (l : list event) : list nat :=
  flat_map (fun e => match e with Start m => [m] | _ => [] end) l.

Lemma starts_sta l : starts l = rev (sta l).
Proof. unfold starts, sta. apply flat_map_rev1. intros []; eauto. Qed.

(** The events of bodies that ran to their ends, the latest first. *)
Definition ran (l : list nat) : list event := flat_map (fun x => [Finish x; Start x]) l.

Lemma sta_ran l r : sta (ran l ++ r) = l ++ sta r.
Proof. induction l as [|x l IH]; [reflexivity|]. cbn. unfold sta, ran in IH. now rewrite IH. Qed.

Section Eval.
Variable G : graph.
Notation rq := (reqs G).

Definition cls_eval (r : modrec) : kls :=
  match stat r with
  | Linked => KFresh | Evaluating => KActive
  | EvalAsync | Evaluated => match err r with None => KDone | Some _ => KErr end
  | _ => KBad
  end.

Definition seen_eval (m : nat) : M unit :=
  e <- read err m ;; match e with None => ret tt | Some e => thrown e end.

Definition enter_eval (m i : nat) : M unit :=
  write m (set_stat Evaluating) ;;; write m (set_dfs i) ;;; l <- stack ;; set_stack (m :: l).

Definition pop_eval (m : nat) : M unit := l <- stack ;; unstack (eval_pop m) m l.

Notation veval := (visit rq cls_eval seen_eval enter_eval eval_req (eval_body G) pop_eval).

Lemma inner_eval_visit f : forall m i s, inner_eval G f m i s = veval f m i s.
Proof.
  induction f as [|f IH]; intros m i s; cbn [inner_eval visit]; unfold bind at 1, read at 1, cls_eval;
    destruct (stat (mods s m)); try reflexivity.
  all: try (unfold seen_eval, bind, read; destruct (err (mods s m)); reflexivity).
  cbv beta iota delta [bind write stack set_stack read enter_eval popif pop_eval].
  rewrite (requests_ext (inner_eval G f) (veval f) (eval_req m) (eval_req m)) by auto.
  destruct (requests _ _ _ _ _) as [[i'|e| |] s']; try reflexivity.
Qed.

Definition popped (m : nat) (r : modrec) : modrec :=
  set_stat (if Nat.eqb (aeval r) 0 then Evaluated else EvalAsync) (set_root m r).

Lemma eval_pop_eq m t s : eval_pop m t s =
  (Ok tt, St (fun x => if Nat.eqb x t then popped m (mods s t) else mods s x) (stk s) (cnt s) (log s))
  \/ exists md, eval_pop m t s = (Ok tt, St md (stk s) (cnt s) (log s)) /\
       forall x, md x = if Nat.eqb x t then popped m (mods s t) else mods s x.
Proof.
  right. unfold eval_pop, bind, write, read. eexists. split; [reflexivity|].
  intros x. cbn [mods]. rewrite Nat.eqb_refl. destruct (Nat.eqb x t); reflexivity.
Qed.

Lemma popped2 m r : popped m (popped m r) = popped m r.
Proof. unfold popped. cbn. reflexivity. Qed.

Lemma unstack_eval m : forall seg rst s, ~ In m seg ->
  exists s', unstack (eval_pop m) m (seg ++ m :: rst) s = (Ok tt, s') /\
    stk s' = rst /\ cnt s' = cnt s /\ log s' = log s /\
    forall x, mods s' x = if in_dec Nat.eq_dec x (seg ++ [m]) then popped m (mods s x) else mods s x.
Proof.
  assert (EP : forall t s, exists md, eval_pop m t s = (Ok tt, St md (stk s) (cnt s) (log s)) /\
       forall x, md x = if Nat.eqb x t then popped m (mods s t) else mods s x).
  { intros t s. destruct (eval_pop_eq m t s) as [h|h]; [|exact h]. eexists. split; [exact h|]. reflexivity. }
  induction seg as [|t seg IH]; intros rst s Hm.
  - cbn [app unstack]. rewrite Nat.eqb_refl. unfold bind at 1, set_stack at 1. unfold bind.
    destruct (EP m (St (mods s) rst (cnt s) (log s))) as (md & -> & Hmd). cbn [stk cnt log mods] in *.
    eexists. split; [reflexivity|]. cbn [mods stk cnt log].
    split; [reflexivity|]. split; [reflexivity|]. split; [reflexivity|].
    intros x. rewrite Hmd. destruct (Nat.eqb_spec x m) as [->|n].
    + destruct (in_dec Nat.eq_dec m [m]) as [h|h]; [reflexivity|exfalso; apply h; now left].
    + destruct (in_dec Nat.eq_dec x [m]) as [[h|[]]|h]; [congruence|reflexivity].
  - cbn [app unstack]. assert (Ht : t <> m) by (intros ->; apply Hm; now left).
    destruct (Nat.eqb_spec t m) as [e|_]; [contradiction|].
    unfold bind at 1, set_stack at 1. unfold bind at 1.
    destruct (EP t (St (mods s) (seg ++ m :: rst) (cnt s) (log s))) as (md & -> & Hmd). cbn [stk cnt log mods] in *.
    destruct (IH rst (St md (seg ++ m :: rst) (cnt s) (log s)))
      as (s' & E & e1 & e2 & e3 & e4); [intros h; apply Hm; now right|].
    exists s'. split; [exact E|]. split; [assumption|]. split; [assumption|]. split; [assumption|].
    intros x. rewrite e4. cbn [mods]. rewrite Hmd.
    destruct (in_dec Nat.eq_dec x (seg ++ [m])) as [h|h]; destruct (in_dec Nat.eq_dec x (t :: seg ++ [m])) as [h'|h'].
    + destruct (Nat.eqb_spec x t) as [->|]; [apply popped2|reflexivity].
    + exfalso. apply h'. now right.
    + destruct h' as [->|h']; [|contradiction]. now rewrite Nat.eqb_refl.
    + destruct (Nat.eqb_spec x t) as [->|]; [exfalso; apply h'; now left|reflexivity].
Qed.

Section Run.
Variable U : list nat.
Variable s0 : st.
Variable m0 : nat.
Hypothesis HU : closed rq U.
Hypothesis Hm0 : In m0 U.
Hypothesis Htla : forall x, In x U -> tla G x = false.
Hypothesis Hk : forall x, In x U -> cls_eval (mods s0 x) = KFresh \/ cls_eval (mods s0 x) = KDone \/ cls_eval (mods s0 x) = KErr.
Hypothesis Hlk : forall x, In x U -> stat (mods s0 x) = Linked ->
  aeval (mods s0 x) = 0 /\ pend (mods s0 x) = 0%Z /\ err (mods s0 x) = None.
Hypothesis Hev : forall x, In x U -> cls_eval (mods s0 x) = KDone ->
  exists r, root (mods s0 x) = Some r /\ cls_eval (mods s0 r) = KDone /\ aeval (mods s0 r) = 0 /\ cyclic rq r x.
Hypothesis Hsound : forall x y, In x U -> cls_eval (mods s0 x) = KDone -> In y (rq x) -> cls_eval (mods s0 y) = KDone.
Hypothesis Hstk : stk s0 = [].

Definition keeps (r r0 : modrec) : Prop :=
  aeval r = aeval r0 /\ pend r = pend r0 /\ err r = err r0 /\ parents r = parents r0 /\ top r = top r0 /\ live r = live r0.

Definition J (Q : list event -> Prop) (s : st) : Prop :=
  (forall x, ~ (In x U /\ stat (mods s0 x) = Linked) -> mods s x = mods s0 x) /\
  (forall x, In x U -> stat (mods s0 x) = Linked ->
     (mods s x = mods s0 x \/ stat (mods s x) = Evaluating \/ stat (mods s x) = Evaluated) /\
     keeps (mods s x) (mods s0 x)) /\
  (forall x, In x U -> cls_eval (mods s x) = KDone ->
     exists r, root (mods s x) = Some r /\ cls_eval (mods s r) = KDone /\ aeval (mods s r) = 0 /\ cyclic rq r x) /\
  cnt s = cnt s0 /\ Q (log s).

Definition Qok (l : list event) : Prop :=
  exists n, l = ran n ++ log s0 /\ forall x, In x n -> body G x = None.
Definition Qer (e : nat) (l : list event) : Prop :=
  Qok l \/ exists n m, l = Fail m e :: Start m :: ran n ++ log s0 /\ body G m = Some e /\ forall x, In x n -> body G x = None.

Definition cause (x e : nat) : Prop :=
  err (mods s0 x) = Some e \/ (stat (mods s0 x) = Linked /\ body G x = Some e).

Lemma k_lk r : cls_eval r = KFresh <-> stat r = Linked.
Proof. unfold cls_eval. destruct (stat r), (err r); split; congruence. Qed.
Lemma k_ing r : cls_eval r = KActive <-> stat r = Evaluating.
Proof. unfold cls_eval. destruct (stat r), (err r); split; congruence. Qed.
Lemma k_dn r : cls_eval r = KDone <-> (stat r = EvalAsync \/ stat r = Evaluated) /\ err r = None.
Proof. unfold cls_eval. destruct (stat r), (err r); split; intuition congruence. Qed.

Lemma keeps_refl r : keeps r r.
Proof. unfold keeps. auto 10. Qed.

Lemma J_act Q s m : J Q s -> In m U -> cls_eval (mods s m) = KActive -> stat (mods s0 m) = Linked.
Proof.
  intros (a & _) HmU e. destruct (Hk m HmU) as [h|h]; [now apply k_lk|].
  assert (E : mods s m = mods s0 m).
  { apply a. intros [_ h2]. apply k_lk in h2. destruct h; congruence. }
  rewrite E in e. destruct h; congruence.
Qed.

Notation inv := (Inv rq cls_eval (fun s => sta (log s)) U s0 m0).

Lemma eval_search f : fresh cls_eval U s0 <= f ->
  match inner_eval G f m0 0 s0 with
  | (Ok _, s) => exists i nw, inv (J Qok) s i nw /\ stk s = [] /\ cls_eval (mods s m0) = KDone /\
                   (forall x, In x nw <-> cls_eval (mods s0 x) = KFresh /\ reach rq m0 x)
  | (Thrown e, s) => (exists i nw, inv (J (Qer e)) s i nw) /\
                     (cls_eval (mods s0 m0) = KFresh -> In m0 (stk s)) /\
                     exists x, reach rq m0 x /\ cause x e
  | _ => False
  end.
Proof.
  intros Hf. rewrite inner_eval_visit.
  apply (search rq cls_eval seen_eval enter_eval eval_req (eval_body G) pop_eval
           (fun s => sta (log s)) (J Qok) (fun e => J (Qer e)) cause U s0 m0); auto.
  - intros e' s (a & b & c & d & e). split; [|split; [|split; [|split]]]; auto. now left.
  - intros s m HJ HmU Hd. unfold seen_eval, bind, read. apply k_dn in Hd. destruct Hd as [_ ->]. reflexivity.
  - intros s m (a & b & _) HmU He. unfold seen_eval, bind, read.
    destruct (err (mods s m)) as [e|] eqn:Ee.
    2:{ exfalso. unfold cls_eval in He. rewrite Ee in He. destruct (stat (mods s m)); discriminate. }
    exists e. split; [reflexivity|]. left.
    destruct (Hk m HmU) as [h|h].
    + apply k_lk in h. destruct (b m HmU h) as [_ (_ & _ & k3 & _)]. congruence.
    + rewrite a in Ee; [assumption|]. intros [_ h2]. apply k_lk in h2. destruct h; congruence.
  - intros s m i HJ HmU Hf'. pose proof HJ as (a & b & c & d & e).
    assert (HmL : stat (mods s0 m) = Linked).
    { destruct (Hk m HmU) as [h|h]; [now apply k_lk|]. exfalso.
      rewrite a in Hf'; [destruct h; congruence|]. intros [_ h2]. apply k_lk in h2. destruct h; congruence. }
    unfold enter_eval, bind, write, stack, set_stack. eexists. split; [reflexivity|].
    cbn [mods stk log cnt]. rewrite Nat.eqb_refl. cbn [stat dfs anc cls_eval set_dfs set_stat].
    split; [reflexivity|]. split; [reflexivity|]. split; [reflexivity|]. split; [reflexivity|]. split; [reflexivity|].
    split.
    2:{ intros x Hx. apply Nat.eqb_neq in Hx. rewrite Hx. auto. }
    split; [|split; [|split; [|split]]]; cbn [mods log cnt].
    + intros x Hx. destruct (Nat.eqb_spec x m) as [->|n]; [exfalso; auto|]. auto.
    + intros x HxU Hx. destruct (Nat.eqb_spec x m) as [->|n]; [|auto].
      split; [right; left; reflexivity|]. destruct (b m HmU Hx) as [_ h]. exact h.
    + intros x HxU Hx. destruct (Nat.eqb_spec x m) as [->|n]; [discriminate|].
      destruct (c x HxU Hx) as (r & r1 & r2 & r3). exists r. split; [assumption|].
      destruct (Nat.eqb_spec r m) as [->|nr]; [congruence|]. auto.
    + assumption.
    + assumption.
  - intros s m r HJ HmU HrU Hm Hr. left. pose proof HJ as (a & b & c & d & e).
    pose proof (J_act _ _ _ HJ HmU Hm) as HmL.
    unfold eval_req, bind, read.
    destruct Hr as [Hr|Hr].
    + rewrite Hr. pose proof (J_act _ _ _ HJ HrU Hr) as HrL. apply k_ing in Hr. rewrite Hr. cbn [status_eqb orb assert].
      unfold ret, assert, write. cbn [mods].
      assert (Ear : forall v, aeval (if Nat.eqb r m then set_anc v (mods s m) else mods s r) = 0).
      { intros v. destruct (b r HrU HrL) as [_ (k1 & _)]. destruct (Hlk r HrU HrL) as (l1 & _).
        destruct (Nat.eqb_spec r m) as [->|]; cbn [aeval set_anc]; congruence. }
      rewrite Ear. cbn [Nat.eqb]. eexists. split; [reflexivity|]. cbn [mods stk log cnt].
      rewrite Nat.eqb_refl. split.
      * split; [|split; [|split; [|split]]]; cbn [mods log cnt].
        -- intros x Hx. destruct (Nat.eqb_spec x m) as [->|n]; [exfalso; auto|]. auto.
        -- intros x HxU Hx. destruct (Nat.eqb_spec x m) as [->|n]; [|auto].
           split; [right; left; now apply k_ing|exact (proj2 (b m HmU Hx))].
        -- intros x HxU Hx. destruct (Nat.eqb_spec x m) as [->|n].
           ++ exfalso. change (cls_eval (mods s m) = KDone) in Hx. congruence.
           ++ destruct (c x HxU Hx) as (q & r1 & r2 & r3). exists q. split; [assumption|].
              destruct (Nat.eqb_spec q m) as [->|nr]; [congruence|]. auto.
        -- assumption.
        -- assumption.
      * split; [reflexivity|]. split; [reflexivity|]. split; [|reflexivity].
        intros x. destruct (Nat.eqb_spec x m) as [->|n]; [|auto]. split; [reflexivity|]. split; [reflexivity|]. congruence.
    + rewrite Hr. destruct (c r HrU Hr) as (q & q1 & q2 & q3 & _).
      apply k_dn in Hr. apply k_dn in q2. destruct Hr as [Hr1 Hr2], q2 as [q2 q2'].
      assert (E1 : status_eqb (stat (mods s r)) Evaluating || status_eqb (stat (mods s r)) EvalAsync || status_eqb (stat (mods s r)) Evaluated = true)
        by (destruct Hr1 as [->| ->]; reflexivity).
      assert (E2 : status_eqb (stat (mods s r)) Evaluating = false) by (destruct Hr1 as [->| ->]; reflexivity).
      assert (E3 : status_eqb (stat (mods s q)) EvalAsync || status_eqb (stat (mods s q)) Evaluated = true)
        by (destruct q2 as [->| ->]; reflexivity).
      unfold assert, ret. rewrite E1. cbv beta iota. rewrite E2. cbv beta iota. rewrite q1. cbv beta iota.
      rewrite E3. cbv beta iota. rewrite q2'. cbv beta iota. rewrite q3. cbn [Nat.eqb].
      exists s. split; [reflexivity|]. auto 10.
  - intros s m HJ HmU Hm Hm0'. pose proof HJ as (a & b & c & d & e).
    pose proof (J_act _ _ _ HJ HmU Hm) as HmL.
    destruct (b m HmU HmL) as [_ (_ & k2 & _)]. destruct (Hlk m HmU HmL) as (_ & l2 & _).
    assert (E : eval_body G m s = execute G m s).
    { unfold eval_body, bind at 1, read at 1. rewrite k2, l2, (Htla m HmU). reflexivity. }
    rewrite E. clear E. destruct e as (n & e1 & e2).
    unfold execute. destruct (body G m) as [er|] eqn:Eb; cbv beta iota zeta delta [bind say thrown]; cbn [mods stk cnt log].
    + eexists. split.
      * right. exists er. split; [reflexivity|]. split; [right; auto|].
        split; [|split; [|split; [|split]]]; cbn [mods log cnt]; auto.
        right. exists n, m. rewrite e1. auto.
      * split; [split; [|reflexivity]; auto|reflexivity].
    + eexists. split.
      * left. split; [reflexivity|].
        split; [|split; [|split; [|split]]]; cbn [mods log cnt]; auto.
        exists (m :: n). rewrite e1. split; [reflexivity|]. intros x [<-|Hx]; auto.
      * split; [split; [|reflexivity]; auto|reflexivity].
  - intros s m seg rst HJ Hs Hm Hseg. pose proof HJ as (a & b & c & d & e).
    unfold pop_eval, bind, stack. rewrite Hs.
    destruct (unstack_eval m seg rst s Hm) as (s' & E & e1 & e2 & e3 & e4).
    assert (Hp : forall x, In x (seg ++ [m]) -> stat (popped m (mods s x)) = Evaluated /\ err (popped m (mods s x)) = None /\ aeval (popped m (mods s x)) = 0).
    { intros x Hx. destruct (Hseg x Hx) as (hU & hk & hf & _). apply k_lk in hf.
      destruct (b x hU hf) as [_ (k1 & _ & k3 & _)]. destruct (Hlk x hU hf) as (l1 & _ & l3).
      unfold popped. cbn [stat err aeval set_stat set_root]. rewrite k1, l1, k3, l3. auto. }
    assert (HmIn : In m (seg ++ [m])) by (apply in_or_app; right; now left).
    exists s'. split; [exact E|]. split; [assumption|]. split; [now rewrite e3|]. split.
    + split; [|split; [|split; [|split]]].
      * intros x Hx. rewrite e4. destruct (in_dec Nat.eq_dec x (seg ++ [m])) as [h|h]; [|auto].
        exfalso. apply Hx. destruct (Hseg x h) as (hU & _ & hf & _). split; [assumption|now apply k_lk].
      * intros x HxU Hx. rewrite e4. destruct (in_dec Nat.eq_dec x (seg ++ [m])) as [h|h]; [|auto].
        split; [right; right; now apply Hp|]. destruct (b x HxU Hx) as [_ h']. exact h'.
      * intros x HxU Hx. rewrite e4 in Hx. rewrite (e4 x). destruct (in_dec Nat.eq_dec x (seg ++ [m])) as [h|h].
        -- exists m. split; [reflexivity|]. rewrite e4. destruct (in_dec Nat.eq_dec m (seg ++ [m])); [|contradiction].
           destruct (Hp m HmIn) as (p1 & p2 & p3). split; [apply k_dn; auto|]. split; [assumption|]. now apply Hseg.
        -- destruct (c x HxU Hx) as (q & r1 & r2 & r3). exists q. split; [assumption|]. rewrite e4.
           destruct (in_dec Nat.eq_dec q (seg ++ [m])) as [hq|hq]; [|auto].
           destruct (Hp q hq) as (p1 & p2 & p3). split; [apply k_dn; auto|]. split; [assumption|]. apply r3.
      * congruence.
      * now rewrite e3.
    + intros x. rewrite e4. destruct (in_dec Nat.eq_dec x (seg ++ [m])) as [h|h].
      * destruct (Hp x h) as (p1 & p2 & p3). split; [intros _; apply k_dn; auto|]. split; [contradiction|]. auto.
      * split; [contradiction|]. auto.
  - split; [|split; [|split; [|split]]]; auto.
    + intros x HxU Hx. split; [now left|apply keeps_refl].
    + exists []. split; [reflexivity|]. intros x [].
Qed.
End Run.

Lemma ran_run l : ran l = rev (run_all (rev l)).
Proof.
  unfold ran, run_all. induction l as [|x l IH]; [reflexivity|].
  cbn [rev]. rewrite flat_map_app, rev_app_distr, <- IH. reflexivity.
Qed.

Lemma undo_eval e : forall l s, NoDup l -> (forall x, In x l -> stat (mods s x) = Evaluating) ->
  exists s', iter (eval_undo e) l s = (Ok tt, s') /\ stk s' = stk s /\ cnt s' = cnt s /\ log s' = log s /\
    forall x, mods s' x = if in_dec Nat.eq_dec x l then set_root x (set_err e (set_stat Evaluated (mods s x))) else mods s x.
Proof.
  induction l as [|t l IH]; intros s Hd Hs; [exists s; repeat split; reflexivity|].
  cbn [iter]. unfold bind at 1. unfold eval_undo at 1, bind at 1, read at 1. rewrite (Hs t (or_introl eq_refl)).
  cbn [status_eqb]. unfold bind, assert, ret, write. cbn [mods stk cnt log]. inversion_clear Hd.
  edestruct IH as (s' & E & e1 & e2 & e3 & e4); [assumption| |].
  2:{ exists s'. split; [exact E|]. cbn [mods stk cnt log] in *. split; [assumption|]. split; [assumption|]. split; [assumption|].
      intros x. rewrite e4, !Nat.eqb_refl. destruct (in_dec Nat.eq_dec x l) as [h|h]; destruct (in_dec Nat.eq_dec x (t :: l)) as [h'|h'].
      - destruct (Nat.eqb_spec x t) as [->|]; [contradiction|reflexivity].
      - exfalso. apply h'. now right.
      - destruct h' as [->|h']; [|contradiction]. rewrite Nat.eqb_refl. reflexivity.
      - destruct (Nat.eqb_spec x t) as [->|]; [exfalso; apply h'; now left|reflexivity]. }
  intros x Hx. cbn [mods]. destruct (Nat.eqb_spec x t) as [->|]; [contradiction|]. apply Hs. now right.
Qed.

Lemma calm_reach U s x y : closed rq U -> calm rq U s -> In x U ->
  stat (mods s x) = Evaluated -> err (mods s x) = None -> reach rq x y ->
  stat (mods s y) = Evaluated /\ err (mods s y) = None.
Proof.
  intros [_ HU] HC Hx H1 H2 Hr. apply clos_rt_rt1n in Hr. revert Hx H1 H2.
  induction Hr as [x|x y z Hxy _ IH]; [auto|]. intros Hx H1 H2.
  destruct (HC x Hx) as [(h & _)|[(_ & _ & _ & _ & h)|(_ & e & h & _)]]; [congruence| |congruence].
  destruct (h y Hxy). apply IH; eauto.
Qed.

Lemma reach_U U x y : closed rq U -> In x U -> reach rq x y -> In y U.
Proof.
  intros [_ HU] Hx Hr. apply clos_rt_rt1n in Hr. revert Hx. induction Hr; eauto.
Qed.

Lemma cyclic_refl x : cyclic rq x x.
Proof. split; apply rt_refl. Qed.

(** Only the promise of the module [m] changes. *)
Definition poked (m : nat) (p : promise) (s s' : st) : Prop :=
  cnt s' = cnt s /\ log s' = log s /\ (forall x, x <> m -> mods s' x = mods s x) /\
  mods s' m = set_top p (mods s m).

Lemma poked_calm U m p s s' : calm rq U s -> poked m p s s' ->
  stat (mods s m) = Evaluated -> p = match err (mods s m) with None => Resolved | Some e => Rejected e end ->
  calm rq U s'.
Proof.
  intros HC (_ & _ & p3 & p4) Hm Hp x Hx.
  assert (Hs : forall y, stat (mods s' y) = stat (mods s y) /\ err (mods s' y) = err (mods s y) /\ aeval (mods s' y) = aeval (mods s y)
     /\ pend (mods s' y) = pend (mods s y) /\ root (mods s' y) = root (mods s y)).
  { intros y. destruct (Nat.eq_dec y m) as [->|n]; [rewrite p4; repeat split|rewrite p3 by assumption; repeat split]. }
  destruct (Hs x) as (x1 & x2 & x3 & x4 & x5). unfold calm1. cbv zeta. rewrite x1, x2, x3, x4, x5.
  assert (Hys : (forall y, In y (rq x) -> stat (mods s y) = Evaluated /\ err (mods s y) = None) ->
                forall y, In y (rq x) -> stat (mods s' y) = Evaluated /\ err (mods s' y) = None).
  { intros h y Hy. destruct (Hs y) as (-> & -> & _). auto. }
  destruct (HC x Hx) as [(h1 & h2 & h3 & h4 & h5)|[(h1 & h2 & h3 & (q & h4 & h5 & h6 & h7 & h8) & h9)|(h1 & e & h2 & h3 & h4)]].
  - left. rewrite p3; [auto 10|]. intros ->. congruence.
  - right. left. split; [assumption|]. split; [assumption|]. split.
    + destruct (Nat.eq_dec x m) as [->|n]; [|now rewrite p3]. right. rewrite p4, Hp, h2. reflexivity.
    + split; [|auto]. exists q. destruct (Hs q) as (-> & -> & -> & _). auto.
  - right. right. split; [assumption|]. exists e. split; [assumption|]. split; [assumption|].
    destruct (Nat.eq_dec x m) as [->|n]; [|now rewrite p3]. right. rewrite p4, Hp, h2. reflexivity.
Qed.

Lemma evaluated_cyc U m r s s' : cyclic rq m r -> evaluated rq (body G) U r r s s' -> evaluated rq (body G) U m r s s'.
Proof.
  intros [Hmr Hrm] (H1 & _ & H3 & H4 & H5).
  assert (E : forall x, reach rq m x <-> reach rq r x) by (intros x; split; intros; eapply rt_trans; eassumption).
  split; [assumption|]. split; [split; assumption|]. split; [assumption|]. split.
  { intros x. rewrite E. auto. }
  destruct H5 as [(new & a1 & a2 & a3 & a4 & a5 & a6 & a7)|(e & new & bad & a1 & a2 & a3 & (z & a4 & a4') & a5 & a6 & a7 & a8 & a9 & a10 & a11 & a12 & a13)]; [left|right].
  - exists new. repeat (split; [assumption|]). split; [intros x; rewrite E; apply a4|]. repeat (split; [assumption|]).
    intros x. rewrite E. auto.
  - exists e, new, bad. repeat (split; [assumption|]). split; [exists z; rewrite E; auto|]. repeat (split; [assumption|]).
    split; [intros x Hx; rewrite E; auto|]. auto.
Qed.

(** The evaluation of a linked module, 1345-1380. *)
Definition eval_run (f m : nat) : M unit :=
  set_stack [] ;;;
  write m (set_top Waiting) ;;;
  fun s =>
    match inner_eval G f m 0 s with
    | (Thrown e, s') =>
        (l <- stack ;; iter (eval_undo e) l ;;; write m (settle (Rejected e))) s'
    | (Ok _, s') =>
        (a <- read aeval m ;;
         (if Nat.eqb a 0 then
            write m (set_stat Evaluated) ;;; write m (settle Resolved)
          else ret tt) ;;;
         l <- stack ;; assert (match l with [] => true | _ => false end)) s'
    | (Abort, s') => (Abort, s')
    | (NoFuel, s') => (NoFuel, s')
    end.

Lemma eval_run_done U f m s : calm rq U s -> In m U -> stat (mods s m) = Evaluated -> top (mods s m) = None ->
  (err (mods s m) = None -> aeval (mods s m) = 0) ->
  exists s', eval_run f m s = (Ok tt, s') /\
    poked m (match err (mods s m) with None => Resolved | Some e => Rejected e end) s s'.
Proof.
  intros HC HmU Hm Ht Ha. unfold eval_run, bind at 1, set_stack at 1. unfold bind at 1, write at 1. cbn [mods stk cnt log].
  set (s1 := St _ _ _ _).
  assert (E1 : mods s1 m = set_top Waiting (mods s m)) by (unfold s1; cbn [mods]; now rewrite Nat.eqb_refl).
  assert (E1' : forall x, x <> m -> mods s1 x = mods s x).
  { intros x Hx. unfold s1. cbn [mods]. apply Nat.eqb_neq in Hx. now rewrite Hx. }
  assert (Ei : inner_eval G f m 0 s1 = match err (mods s m) with None => (Ok 0, s1) | Some e => (Thrown e, s1) end).
  { destruct f; cbn [inner_eval]; unfold bind at 1, read at 1; rewrite E1; cbn [stat set_top]; rewrite Hm;
      unfold bind, read; rewrite E1; cbn [err set_top]; destruct (err (mods s m)); reflexivity. }
  rewrite Ei. destruct (err (mods s m)) as [e|] eqn:Ee.
  - unfold bind, stack, write. cbn [stk s1 iter ret]. eexists. split; [reflexivity|].
    split; [reflexivity|]. split; [reflexivity|]. cbn [mods]. rewrite Nat.eqb_refl.
    rewrite E1. split; [|destruct (mods s m); reflexivity]. intros x Hx. rewrite <- (E1' x Hx). apply Nat.eqb_neq in Hx. now rewrite Hx.
  - unfold bind at 1, read at 1. rewrite E1. cbn [aeval set_top]. rewrite (Ha eq_refl). cbn [Nat.eqb].
    unfold bind, write, stack, assert, ret. cbn [stk s1]. eexists. split; [reflexivity|].
    split; [reflexivity|]. split; [reflexivity|]. cbn [mods]. rewrite !Nat.eqb_refl.
    rewrite E1. split; [intros x Hx; rewrite <- (E1' x Hx); apply Nat.eqb_neq in Hx; now rewrite Hx|].
    destruct (mods s m); cbn in *; subst; reflexivity.
Qed.

Lemma eval_run_linked U f m s : closed rq U -> In m U -> length U <= f -> (forall x, In x U -> tla G x = false) ->
  calm rq U s -> stat (mods s m) = Linked ->
  exists s', eval_run f m s = (Ok tt, s') /\ evaluated rq (body G) U m m s s'.
Proof.
  intros HU HmU Hf Htla HC Hm.
  unfold eval_run, bind at 1, set_stack at 1. unfold bind at 1, write at 1. cbn [mods stk cnt log].
  set (s1 := St _ _ _ _).
  assert (E1 : mods s1 m = set_top Waiting (mods s m)) by (unfold s1; cbn [mods]; now rewrite Nat.eqb_refl).
  assert (E1' : forall x, x <> m -> mods s1 x = mods s x).
  { intros x Hx. unfold s1. cbn [mods]. apply Nat.eqb_neq in Hx. now rewrite Hx. }
  assert (Es : forall x, stat (mods s1 x) = stat (mods s x) /\ err (mods s1 x) = err (mods s x) /\ aeval (mods s1 x) = aeval (mods s x)
     /\ pend (mods s1 x) = pend (mods s x) /\ root (mods s1 x) = root (mods s x) /\ cls_eval (mods s1 x) = cls_eval (mods s x)).
  { intros x. destruct (Nat.eq_dec x m) as [->|n]; [rewrite E1; repeat split|rewrite E1' by assumption; repeat split]. }
  assert (Hdn : forall x, In x U -> cls_eval (mods s x) = KDone -> stat (mods s x) = Evaluated /\ err (mods s x) = None).
  { intros x Hx h. destruct (HC x Hx) as [(a & _)|[(a & b & _)|(a & e & b & _)]]; auto.
    - apply k_lk in a. congruence.
    - apply k_dn in h. destruct h. congruence. }
  assert (Hdn' : forall x, stat (mods s x) = Evaluated -> err (mods s x) = None -> cls_eval (mods s x) = KDone).
  { intros x a b. unfold cls_eval. now rewrite a, b. }
  assert (Hkk : forall x, In x U -> cls_eval (mods s x) = KFresh \/ cls_eval (mods s x) = KDone \/ cls_eval (mods s x) = KErr).
  { intros x Hx. unfold cls_eval. destruct (HC x Hx) as [(a & _)|[(a & b & _)|(a & e & b & _)]]; rewrite a; [auto|rewrite b; auto..]. }
  pose proof (eval_search U s1 m HU HmU Htla) as HS.
  assert (Hfr : fresh cls_eval U s1 <= f) by (etransitivity; [apply fresh_len|exact Hf]).
  specialize (fun a b c d e => HS a b c d e f Hfr).
  assert (P1 : forall x, In x U -> cls_eval (mods s1 x) = KFresh \/ cls_eval (mods s1 x) = KDone \/ cls_eval (mods s1 x) = KErr).
  { intros x Hx. destruct (Es x) as (_ & _ & _ & _ & _ & ->). auto. }
  assert (P2 : forall x, In x U -> stat (mods s1 x) = Linked ->
    aeval (mods s1 x) = 0 /\ pend (mods s1 x) = 0%Z /\ err (mods s1 x) = None).
  { intros x Hx h. destruct (Es x) as (e1 & -> & -> & -> & _). rewrite e1 in h.
    destruct (HC x Hx) as [(_ & a & b & c & _)|[(a & _)|(a & _)]]; [auto|congruence..]. }
  assert (P3 : forall x, In x U -> cls_eval (mods s1 x) = KDone ->
    exists r, root (mods s1 x) = Some r /\ cls_eval (mods s1 r) = KDone /\ aeval (mods s1 r) = 0 /\ cyclic rq r x).
  { intros x Hx h. destruct (Es x) as (_ & _ & _ & _ & -> & e). rewrite e in h. destruct (Hdn x Hx h) as [h1 h2].
    destruct (HC x Hx) as [(a & _)|[(_ & _ & _ & (q & b1 & b2 & b3 & b4 & b5) & _)|(_ & e' & a & _)]]; [congruence| |congruence].
    exists q. destruct (Es q) as (_ & _ & -> & _ & _ & ->). auto. }
  assert (P4 : forall x y, In x U -> cls_eval (mods s1 x) = KDone -> In y (rq x) -> cls_eval (mods s1 y) = KDone).
  { intros x y Hx h Hy. destruct (Es x) as (_ & _ & _ & _ & _ & e). rewrite e in h. destruct (Hdn x Hx h) as [h1 h2].
    destruct (HC x Hx) as [(a & _)|[(_ & _ & _ & _ & b)|(_ & e' & a & _)]]; [congruence| |congruence].
    destruct (b y Hy). destruct (Es y) as (_ & _ & _ & _ & _ & ->). auto. }
  specialize (HS P1 P2 P3 P4 eq_refl).
  (* what the invariant says about the modules *)
  assert (Hinv : forall Q s' i nw, Inv rq cls_eval (fun s => sta (log s)) U s1 m (J U s1 Q) s' i nw ->
     (forall x, In x U -> cls_eval (mods s' x) = KFresh -> mods s' x = mods s1 x) /\
     (forall x, In x U -> cls_eval (mods s' x) = KDone -> stat (mods s' x) = Evaluated /\ err (mods s' x) = None /\
        (x <> m -> top (mods s' x) = None \/ top (mods s' x) = Some Resolved) /\
        (exists q, root (mods s' x) = Some q /\ cyclic rq q x /\ In q U /\ cls_eval (mods s' q) = KDone /\ aeval (mods s' q) = 0) /\
        forall y, In y (rq x) -> In y U /\ cls_eval (mods s' y) = KDone) /\
     (forall x, In x U -> cls_eval (mods s' x) = KErr -> mods s' x = mods s1 x /\ cls_eval (mods s x) = KErr) /\
     (forall x, ~ (In x U /\ stat (mods s x) = Linked /\ reach rq m x) -> mods s' x = mods s1 x) /\
     top (mods s' m) = Some Waiting).
  { intros Q s' i nw I. destruct (i_J _ _ _ _ _ _ _ _ _ _ I) as (j1 & j2 & j3 & j4 & j5).
    assert (Hfr1 : forall x, In x U -> cls_eval (mods s' x) = KFresh -> mods s' x = mods s1 x).
    { intros x Hx h.
      assert (HxL : stat (mods s1 x) = Linked). { apply k_lk. apply (i_old2 _ _ _ _ _ _ _ _ _ _ I); auto. }
      destruct (j2 x Hx HxL) as [[a|[a|a]] _]; [assumption|apply k_lk in h; congruence..]. }
    split; [assumption|]. split; [|split; [|split]].
    - intros x Hx h. destruct (j3 x Hx h) as (q & q1 & q2 & q3 & q4).
      assert (HqU : In q U) by (eapply reach_U; [exact HU|exact Hx|apply q4]).
      assert (Hall : stat (mods s' x) = Evaluated /\ (x <> m -> top (mods s' x) = None \/ top (mods s' x) = Some Resolved)).
      { destruct (P1 x Hx) as [k|k].
        - apply k_lk in k. destruct (j2 x Hx k) as [a (_ & _ & _ & _ & kt & _)]. split.
          + destruct a as [a|[a|a]]; [|apply k_ing in a; congruence|assumption].
            rewrite a in h. apply k_lk in k. congruence.
          + intros n. rewrite kt, E1' by assumption. left. rewrite E1' in k by assumption.
            destruct (HC x Hx) as [(_ & _ & _ & _ & a')|[(a' & _)|(a' & _)]]; [assumption|congruence..].
        - assert (E : mods s' x = mods s1 x).
          { apply j1. intros [_ h']. apply k_lk in h'. destruct k; congruence. }
          rewrite E. rewrite E in h. destruct (Es x) as (-> & _ & _ & _ & _ & ek). rewrite ek in h. destruct (Hdn x Hx h) as [u v].
          split; [assumption|]. intros n. rewrite E1' by assumption.
          destruct (HC x Hx) as [(a' & _)|[(_ & _ & a' & _)|(_ & e' & a' & _)]]; [congruence|assumption|congruence]. }
      split; [apply Hall|]. split; [now apply k_dn in h|]. split; [apply Hall|]. split; [exists q; auto|].
      intros y Hy. split; [exact (proj2 HU x y Hx Hy)|]. exact (i_closed _ _ _ _ _ _ _ _ _ _ I x y Hx h Hy).
    - intros x Hx h. destruct (P1 x Hx) as [k|k].
      + exfalso. pose proof k as k'. apply k_lk in k. destruct (j2 x Hx k) as [a (_ & _ & ke & _)].
        destruct (P2 x Hx k) as (_ & _ & e). rewrite e in ke. unfold cls_eval in h. rewrite ke in h.
        destruct (stat (mods s' x)); discriminate.
      + assert (E : mods s' x = mods s1 x).
        { apply j1. intros [_ h']. apply k_lk in h'. destruct k; congruence. }
        split; [assumption|]. rewrite E in h. destruct (Es x) as (_ & _ & _ & _ & _ & <-). assumption.
    - intros x Hx. destruct (in_dec Nat.eq_dec x U) as [hU|hU]; [|apply j1; intros [? ?]; auto].
      destruct (Hkk x hU) as [k|k]; [|apply j1; intros [_ h']; apply k_lk in h'; destruct (Es x) as (_ & _ & _ & _ & _ & ek); destruct k; congruence].
      apply Hfr1; [assumption|]. destruct (cls_eval (mods s' x)) eqn:Ek; [reflexivity|exfalso..].
      all: apply Hx; split; [assumption|]; split; [now apply k_lk|];
        apply (i_mR _ _ _ _ _ _ _ _ _ _ I); [assumption|destruct (Es x) as (_ & _ & _ & _ & _ & ->); assumption|congruence].
    - assert (HmL : stat (mods s1 m) = Linked) by (destruct (Es m) as (-> & _); assumption).
      destruct (j2 m HmU HmL) as [_ (_ & _ & _ & _ & -> & _)]. rewrite E1. reflexivity. }
  destruct (inner_eval G f m 0 s1) as [[i|e| |] s']; try contradiction.
  - destruct HS as (i' & nw & I & Hs & Hd & Hnw). destruct (Hinv _ _ _ _ I) as (F1 & F2 & F3 & F4 & F5).
    destruct (i_J _ _ _ _ _ _ _ _ _ _ I) as (j1 & j2 & j3 & j4 & n & j5 & j6).
    assert (En : n = nw).
    { pose proof (i_marks _ _ _ _ _ _ _ _ _ _ I) as mk. cbn beta in mk. rewrite j5, sta_ran in mk. now apply app_inv_tail in mk. }
    subst n.
    assert (HmL : stat (mods s1 m) = Linked) by (destruct (Es m) as (-> & _); assumption).
    destruct (j2 m HmU HmL) as [_ (ka & _)]. destruct (P2 m HmU HmL) as (pa & _).
    unfold bind at 1, read at 1. rewrite ka, pa. cbn [Nat.eqb].
    unfold bind, write, stack, assert, ret. cbn [stk]. rewrite Hs. eexists. split; [reflexivity|].
    set (s2 := St _ _ _ _).
    assert (M1 : forall x, x <> m -> mods s2 x = mods s' x).
    { intros x Hx. unfold s2. cbn [mods]. apply Nat.eqb_neq in Hx. now rewrite Hx. }
    assert (M2 : mods s2 m = set_top Resolved (set_stat Evaluated (mods s' m))).
    { unfold s2. cbn [mods]. rewrite !Nat.eqb_refl. unfold settle. cbn [top set_stat]. rewrite F5. reflexivity. }
    assert (Hok : forall x, In x U -> cls_eval (mods s' x) = KDone -> stat (mods s2 x) = Evaluated /\ err (mods s2 x) = None).
    { intros x Hx h. destruct (F2 x Hx h) as (a & b & _). destruct (Nat.eq_dec x m) as [->|ne]; [rewrite M2|rewrite M1 by assumption]; auto. }
    assert (Hrd : forall x, reach rq m x -> In x U /\ cls_eval (mods s' x) = KDone).
    { intros x Hx. eapply (done_reach rq cls_eval); eauto. }
    split; [|split; [|split; [|split]]].
    + intros x Hx. destruct (cls_eval (mods s' x)) eqn:Ek.
      * left. destruct (Nat.eq_dec x m) as [->|ne]; [congruence|]. rewrite M1 by assumption.
        pose proof (F1 x Hx Ek) as Ef. rewrite E1' in Ef by assumption. rewrite Ef in Ek. unfold calm1. rewrite ?M1, ?Ef by assumption. apply k_lk in Ek.
        destruct (HC x Hx) as [h|[(a' & _)|(a' & _)]]; [assumption|congruence..].
      * exfalso. apply (i_act _ _ _ _ _ _ _ _ _ _ I) in Ek; [|assumption]. now rewrite Hs in Ek.
      * right. left. destruct (F2 x Hx Ek) as (a & b & c & (q & d1 & d2 & d3 & d4 & d5) & e).
        destruct (Hok x Hx Ek) as [g1 g2]. split; [assumption|]. split; [assumption|]. split; [|split].
        -- destruct (Nat.eq_dec x m) as [->|ne]; [rewrite M2; now right|rewrite M1 by assumption; auto].
        -- exists q. destruct (Hok q d3 d4) as [g3 g4]. split; [|split; [assumption|split; [assumption|split; [assumption|]]]].
           ++ destruct (Nat.eq_dec x m) as [->|ne]; [rewrite M2|rewrite M1 by assumption]; assumption.
           ++ destruct (Nat.eq_dec q m) as [->|ne]; [rewrite M2|rewrite M1 by assumption]; assumption.
        -- intros y Hy. destruct (e y Hy). auto.
      * right. right. destruct (F3 x Hx Ek) as [a b]. destruct (Nat.eq_dec x m) as [->|ne]; [congruence|].
        rewrite M1, a, E1' by assumption. destruct (HC x Hx) as [(a' & _)|[(a' & b' & _)|h]]; [apply k_lk in a'; congruence| |assumption].
        rewrite (Hdn' x) in b by assumption. discriminate.
      * exfalso. now apply (i_bad _ _ _ _ _ _ _ _ _ _ I x Hx).
    + apply cyclic_refl.
    + exact j4.
    + intros x Hx ne. rewrite M1 by assumption. rewrite F4 by assumption. auto.
    + left. exists (rev nw). split; [rewrite M2; reflexivity|]. split; [rewrite <- ran_run; exact j5|].
      split; [apply NoDup_rev, (i_nwd _ _ _ _ _ _ _ _ _ _ I)|]. split; [|split; [|split]].
      * intros x. rewrite <- in_rev, Hnw, k_lk. destruct (Es x) as (-> & _). reflexivity.
      * intros x Hx. apply j6. now apply in_rev.
      * intros a x b E y Hy Hdu Hr. apply (i_order _ _ _ _ _ _ _ _ _ _ I a x b E y Hy); [|assumption].
        apply k_lk. destruct (Es y) as (-> & _). assumption.
      * intros x Hx. destruct (Hrd x Hx). auto.
  - destruct HS as ((i' & nw & I) & Hin & z & Hz & Hc). destruct (Hinv _ _ _ _ I) as (F1 & F2 & F3 & F4 & F5).
    destruct (i_J _ _ _ _ _ _ _ _ _ _ I) as (j1 & j2 & j3 & j4 & j5).
    assert (Hact : forall y, In y (stk s') -> stat (mods s' y) = Evaluating).
    { intros y Hy. apply k_ing. apply (i_act _ _ _ _ _ _ _ _ _ _ I); [|assumption]. now apply (i_stkU _ _ _ _ _ _ _ _ _ _ I). }
    unfold bind at 1, stack at 1, bind at 1.
    destruct (undo_eval e (stk s') s' (i_nodup _ _ _ _ _ _ _ _ _ _ I) Hact) as (s2 & E2 & e1 & e2 & e3 & e4).
    rewrite E2. unfold write. eexists. split; [reflexivity|]. set (s3 := St _ _ _ _).
    assert (HmF : cls_eval (mods s1 m) = KFresh) by (apply k_lk; destruct (Es m) as (-> & _); assumption).
    assert (Hmin : In m (stk s')) by auto.
    assert (M1 : forall x, x <> m -> mods s3 x = if in_dec Nat.eq_dec x (stk s') then set_root x (set_err e (set_stat Evaluated (mods s' x))) else mods s' x).
    { intros x Hx. rewrite <- e4. unfold s3. cbn [mods]. apply Nat.eqb_neq in Hx. now rewrite Hx. }
    assert (M2 : mods s3 m = set_top (Rejected e) (set_root m (set_err e (set_stat Evaluated (mods s' m))))).
    { unfold s3. cbn [mods]. rewrite Nat.eqb_refl, e4. destruct (in_dec Nat.eq_dec m (stk s')); [|contradiction].
      unfold settle. cbn [top set_root set_err set_stat]. rewrite F5. reflexivity. }
    assert (HmK : cls_eval (mods s' m) = KActive).
    { apply (i_act _ _ _ _ _ _ _ _ _ _ I); assumption. }
    assert (Hkeep : forall x, In x U -> cls_eval (mods s' x) <> KActive -> mods s3 x = mods s' x).
    { intros x Hx hk. destruct (Nat.eq_dec x m) as [->|ne]; [contradiction|]. rewrite M1 by assumption.
      destruct (in_dec Nat.eq_dec x (stk s')) as [h|h]; [|reflexivity]. exfalso. apply hk. now apply (i_act _ _ _ _ _ _ _ _ _ _ I). }
    split; [|split; [|split; [|split]]].
    + intros x Hx. destruct (cls_eval (mods s' x)) eqn:Ek.
      * left. rewrite Hkeep by (auto; congruence). destruct (Nat.eq_dec x m) as [->|ne]; [congruence|].
        pose proof (F1 x Hx Ek) as Ef. rewrite E1' in Ef by assumption. rewrite Ef in Ek. unfold calm1. rewrite ?M1, ?Ef by assumption. apply k_lk in Ek.
        destruct (HC x Hx) as [h|[(a' & _)|(a' & _)]]; [assumption|congruence..].
      * right. right. destruct (Nat.eq_dec x m) as [->|ne].
        -- rewrite M2. split; [reflexivity|]. exists e. split; [reflexivity|]. split; [reflexivity|]. now right.
        -- rewrite M1 by assumption. apply (i_act _ _ _ _ _ _ _ _ _ _ I) in Ek; [|assumption].
           destruct (in_dec Nat.eq_dec x (stk s')) as [h|h]; [|contradiction].
           split; [reflexivity|]. exists e. split; [reflexivity|]. split; [reflexivity|]. left.
           cbn [top set_root set_err set_stat].
           assert (HxL : stat (mods s1 x) = Linked).
           { apply k_lk. apply (i_old2 _ _ _ _ _ _ _ _ _ _ I); [assumption|]. right. now apply (i_act _ _ _ _ _ _ _ _ _ _ I). }
           destruct (j2 x Hx HxL) as [_ (_ & _ & _ & _ & -> & _)]. rewrite E1' in * by assumption.
           destruct (HC x Hx) as [(_ & _ & _ & _ & a')|[(a' & _)|(a' & _)]]; [assumption|congruence..].
      * right. left. destruct (F2 x Hx Ek) as (a & b & c & (q & d1 & d2 & d3 & d4 & d5) & g).
        rewrite Hkeep by (auto; congruence). split; [assumption|]. split; [assumption|]. split; [|split].
        -- apply c. intros ->. congruence.
        -- exists q. rewrite (Hkeep q) by (auto; congruence). destruct (F2 q d3 d4) as (u & v & _). auto 10.
        -- intros y Hy. destruct (g y Hy) as [u v]. rewrite Hkeep by (auto; congruence). destruct (F2 y u v) as (? & ? & _). auto.
      * right. right. destruct (F3 x Hx Ek) as [a b]. rewrite Hkeep by (auto; congruence).
        destruct (Nat.eq_dec x m) as [->|ne]; [congruence|].
        rewrite a, E1' by assumption. destruct (HC x Hx) as [(a' & _)|[(a' & b' & _)|h]]; [apply k_lk in a'; congruence| |assumption].
        rewrite (Hdn' x) in b by assumption. discriminate.
      * exfalso. now apply (i_bad _ _ _ _ _ _ _ _ _ _ I x Hx).
    + apply cyclic_refl.
    + unfold s3. cbn [cnt]. rewrite e2. exact j4.
    + intros x Hx ne. rewrite M1 by assumption. destruct (in_dec Nat.eq_dec x (stk s')) as [h|h].
      * exfalso. apply Hx. pose proof (i_stkU _ _ _ _ _ _ _ _ _ _ I x h) as hU. split; [assumption|].
        split; [|now apply (i_stkR _ _ _ _ _ _ _ _ _ _ I)].
        destruct (Es x) as (<- & _). apply k_lk. apply (i_old2 _ _ _ _ _ _ _ _ _ _ I); [assumption|]. right. now apply (i_act _ _ _ _ _ _ _ _ _ _ I).
      * rewrite F4 by assumption. auto.
    + right.
      assert (HL : exists n bad, nw = bad ++ n /\ length bad <= 1 /\ log s' = rev (run_all (rev n) ++ flat_map (fun x => [Start x; Fail x e]) bad) ++ log s
                 /\ (forall x, In x n -> body G x = None) /\ (forall x, In x bad -> body G x = Some e)).
      { pose proof (i_marks _ _ _ _ _ _ _ _ _ _ I) as mk. cbn beta in mk.
        destruct j5 as [(n & a & b)|(n & y & a & b & c)].
        - exists n, []. rewrite a, sta_ran in mk. apply app_inv_tail in mk. split; [now symmetry|]. split; [auto|].
          cbn [flat_map]. rewrite app_nil_r, <- ran_run. split; [exact a|]. split; [assumption|]. intros x [].
        - exists n, [y]. rewrite a in mk. cbn [sta flat_map app] in mk. fold (sta (ran n ++ log s1)) in mk. rewrite sta_ran in mk.
          change (y :: n ++ sta (log s1)) with ((y :: n) ++ sta (log s1)) in mk. apply app_inv_tail in mk.
          split; [now symmetry|]. split; [auto|]. rewrite rev_app_distr, <- ran_run. split; [exact a|]. split; [assumption|].
          intros x [<-|[]]. assumption. }
      destruct HL as (n & bad & En & Hlen & Elog & Hn & Hb).
      assert (Hrb : rev bad = bad) by (destruct bad as [|? [|? ?]]; [reflexivity..|simpl in Hlen; lia]).
      assert (Erev : rev nw = rev n ++ bad) by (now rewrite En, rev_app_distr, Hrb).
      exists e, (rev n), bad. rewrite M2. split; [reflexivity|]. split; [reflexivity|]. split; [reflexivity|]. split.
      { exists z. split; [assumption|]. unfold cause in Hc. destruct (Es z) as (g1 & g2 & _). rewrite g1, g2 in Hc. assumption. }
      split; [unfold s3; cbn [log]; now rewrite e3|]. split; [assumption|]. rewrite <- Erev.
      split; [apply NoDup_rev, (i_nwd _ _ _ _ _ _ _ _ _ _ I)|]. split; [|split; [|split; [assumption|split; [|split]]]].
      * intros x Hx. apply in_rev in Hx. destruct (i_nw _ _ _ _ _ _ _ _ _ _ I x Hx) as (u & v & w & r).
        split; [destruct (Es x) as (<- & _); now apply k_lk|]. split; [assumption|].
        destruct (Nat.eq_dec x m) as [->|ne]; [rewrite M2; reflexivity|]. rewrite M1 by assumption.
        destruct (in_dec Nat.eq_dec x (stk s')) as [h|h]; [reflexivity|].
        destruct (cls_eval (mods s' x)) eqn:Ek; [congruence| | | |].
        -- exfalso. apply h. now apply (i_act _ _ _ _ _ _ _ _ _ _ I).
        -- now apply F2.
        -- destruct (F3 x u Ek) as [_ hk]. destruct (Es x) as (_ & _ & _ & _ & _ & ek). congruence.
        -- exfalso. now apply (i_bad _ _ _ _ _ _ _ _ _ _ I x u).
      * intros x Hx. apply Hn. now apply in_rev.
      * intros x y Hx Hy. apply in_rev in Hx. destruct (i_nw _ _ _ _ _ _ _ _ _ _ I x Hx) as (u & v & w & r).
        pose proof (proj2 HU x y u Hy) as yU.
        assert (Ky : cls_eval (mods s' y) = KDone \/ cls_eval (mods s' y) = KActive).
        { destruct (in_dec Nat.eq_dec x (stk s')) as [h|h].
          - destruct (i_edge _ _ _ _ _ _ _ _ _ _ I x h Hx y Hy) as [k|[k _]]; [now left|right]. now apply (i_act _ _ _ _ _ _ _ _ _ _ I).
          - left. apply (i_closed _ _ _ _ _ _ _ _ _ _ I x y u); [|assumption].
            destruct (cls_eval (mods s' x)) eqn:Ek; [congruence| |reflexivity| |].
            + exfalso. apply h. now apply (i_act _ _ _ _ _ _ _ _ _ _ I).
            + exfalso. destruct (F3 x u Ek) as [_ hk]. destruct (Es x) as (_ & _ & _ & _ & _ & ek). congruence.
            + exfalso. now apply (i_bad _ _ _ _ _ _ _ _ _ _ I x u). }
        destruct (Es y) as (gs & <- & _).
        assert (K0 : cls_eval (mods s1 y) = KFresh \/ cls_eval (mods s1 y) = KDone).
        { destruct Ky as [k|k]; [|left; apply (i_old2 _ _ _ _ _ _ _ _ _ _ I); auto].
          destruct (i_old _ _ _ _ _ _ _ _ _ _ I y yU) as [h|h]; [now left|right]. congruence. }
        destruct K0 as [k|k]; [|now apply k_dn in k]. apply k_lk in k. now apply P2.
      * intros x Hx h1 h2. rewrite <- in_rev.
        destruct (Nat.eq_dec x m) as [->|ne]; [rewrite M2 in h2; discriminate|]. rewrite M1 in h1, h2 by assumption.
        destruct (in_dec Nat.eq_dec x (stk s')) as [h|h]; [discriminate|].
        assert (kd : cls_eval (mods s' x) = KDone) by (apply k_dn; auto).
        assert (k0 : cls_eval (mods s1 x) = KFresh) by (apply k_lk; destruct (Es x) as (-> & _); assumption).
        destruct (in_dec Nat.eq_dec x U) as [hU|hU]; [now apply (i_new _ _ _ _ _ _ _ _ _ _ I)|].
        rewrite (i_out _ _ _ _ _ _ _ _ _ _ I x hU) in kd. congruence.
      * intros a x b E y Hy Hdu Hr. apply (i_order _ _ _ _ _ _ _ _ _ _ I a x b E y Hy); [|assumption].
        apply k_lk. destruct (Es y) as (-> & _). assumption.
Qed.

Theorem evaluate_correct U s m f : closed rq U -> In m U -> length U <= f -> (forall x, In x U -> tla G x = false) ->
  calm rq U s ->
  exists r s', evaluate G f m s = (Ok r, s') /\ evaluated rq (body G) U m r s s'.
Proof.
  intros HU HmU Hf Htla HC.
  assert (EV : forall r, (if status_eqb (stat (mods s m)) Linked then Some m else root (mods s m)) = Some r ->
     evaluate G f m s = (t <- read top r ;; (if is_some t then ret tt else eval_run f r) ;;; ret r) s).
  { intros r Hr. unfold evaluate, bind at 1, read at 1, bind at 1.
    assert (Ea : assert (status_eqb (stat (mods s m)) Linked || status_eqb (stat (mods s m)) EvalAsync || status_eqb (stat (mods s m)) Evaluated) s = (Ok tt, s)).
    { destruct (HC m HmU) as [(a & _)|[(a & _)|(a & _)]]; rewrite a; reflexivity. }
    rewrite Ea. unfold bind at 1. destruct (status_eqb (stat (mods s m)) Linked).
    - injection Hr as <-. reflexivity.
    - unfold read at 1. rewrite Hr. reflexivity. }
  assert (Hold : forall r, In r U -> stat (mods s r) = Evaluated -> (err (mods s r) = None -> aeval (mods s r) = 0) ->
     exists s', (t <- read top r ;; (if is_some t then ret tt else eval_run f r) ;;; ret r) s = (Ok r, s') /\
       evaluated rq (body G) U r r s s').
  { intros r HrU Hr Ha. unfold bind at 1, read at 1.
    assert (HP : forall s', (s' = s /\ top (mods s r) <> None \/ poked r (match err (mods s r) with None => Resolved | Some e => Rejected e end) s s') ->
       evaluated rq (body G) U r r s s').
    { intros s' Hs.
      assert (HB : calm rq U s' /\ cnt s' = cnt s /\ log s' = log s /\ (forall x, x <> r -> mods s' x = mods s x) /\
                   (forall x, stat (mods s' x) = stat (mods s x) /\ err (mods s' x) = err (mods s x)) /\
                   top (mods s' r) = Some (match err (mods s r) with None => Resolved | Some e => Rejected e end)).
      { destruct Hs as [[-> Ht]|Hp].
        - repeat (split; [auto|]). destruct (HC r HrU) as [(a & _)|[(_ & b & [c|c] & _)|(_ & e & b & _ & [c|c])]]; rewrite ?b; congruence.
        - pose proof Hp as (p1 & p2 & p3 & p4). split; [eapply poked_calm; eauto|]. do 3 (split; [assumption|]). split.
          + intros x. destruct (Nat.eq_dec x r) as [->|n]; [rewrite p4; auto|rewrite p3 by assumption; auto].
          + rewrite p4. reflexivity. }
      destruct HB as (b1 & b2 & b3 & b4 & b5 & b6).
      split; [assumption|]. split; [apply cyclic_refl|]. split; [assumption|]. split; [auto|].
      destruct (err (mods s r)) as [e|] eqn:Ee.
      - right. exists e, [], []. split; [assumption|]. destruct (b5 r) as [-> ->]. split; [assumption|]. split; [assumption|].
        split; [exists r; split; [apply rt_refl|auto]|]. split; [assumption|]. split; [simpl; lia|]. split; [constructor|].
        split; [intros x []|]. split; [intros x []|]. split; [intros x []|]. split; [intros x y []|].
        split; [|intros [|? ?] x b E; discriminate]. intros x Hx h. destruct (b5 x) as [b5' _]. congruence.
      - left. exists []. split; [assumption|]. split; [assumption|]. split; [constructor|].
        assert (Hrr : forall x, reach rq r x -> stat (mods s x) = Evaluated /\ err (mods s x) = None)
          by (intros x Hx; eapply calm_reach; eassumption).
        split; [intros x; split; [intros []|intros [h1 h2]; destruct (Hrr x h2); congruence]|]. split; [intros x []|].
        split; [intros [|? ?] x b E; discriminate|]. intros x Hx. destruct (b5 x) as [-> ->]. auto. }
    unfold bind. destruct (top (mods s r)) as [t|] eqn:Et; cbn [is_some].
    - exists s. split; [reflexivity|]. apply HP. left. split; [reflexivity|]. congruence.
    - destruct (eval_run_done U f r s HC HrU Hr Et Ha) as (s' & E & Hp). rewrite E. exists s'. split; [reflexivity|]. auto. }
  destruct (HC m HmU) as [(a & _ & _ & _ & t)|[(a & b & _ & (q & c1 & c2 & c3 & c4 & c5) & _)|(a & e & b & c & _)]].
  - exists m. rewrite (EV m) by (rewrite a; reflexivity). unfold bind at 1, read at 1. rewrite t. cbn [is_some].
    destruct (eval_run_linked U f m s HU HmU Hf Htla HC a) as (s' & E & He).
    exists s'. unfold bind. rewrite E. auto.
  - exists q. rewrite (EV q) by (rewrite a; assumption).
    assert (HqU : In q U) by (eapply reach_U; [exact HU|exact HmU|apply c2]).
    destruct (Hold q HqU c3 (fun _ => c5)) as (s' & E & He). exists s'. split; [assumption|].
    apply evaluated_cyc; [|assumption]. destruct c2. split; assumption.
  - exists m. rewrite (EV m) by (rewrite a; assumption).
    destruct (Hold m HmU a) as (s' & E & He); [congruence|]. exists s'. auto.
Qed.
End Eval.
