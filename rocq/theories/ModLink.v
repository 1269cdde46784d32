(** Linking: the depth first search of ModDfs instantiated. *)

From Coq Require Import ZArith List Bool Arith Lia Relations Sorted.
From Verif Require Import ModModel ModSpec ModDfs.
Import ListNotations.

Lemma requests_ext c1 c2 p1 p2 l : (forall r i s, c1 r i s = c2 r i s) -> (forall r s, p1 r s = p2 r s) ->
  forall i s, requests c1 p1 l i s = requests c2 p2 l i s.
Proof.
  intros Hc Hp. induction l as [|r l IH]; intros i s; [reflexivity|].
  cbn [requests]. unfold bind. rewrite Hc. destruct (c2 r i s) as [[i'|e| |] s']; try reflexivity.
  rewrite Hp. destruct (p2 r s') as [[[]|e| |] s2]; try reflexivity. apply IH.
Qed.

Lemma bind_ok {A B} (c : M A) (k : A -> M B) s a s' : c s = (Ok a, s') -> bind c k s = k a s'.
Proof. intros H. unfold bind. now rewrite H. Qed.
Lemma bind_assoc {A B C} (c : M A) (k : A -> M B) (h : B -> M C) s :
  bind (bind c k) h s = bind c (fun a => bind (k a) h) s.
Proof. unfold bind. destruct (c s) as [[a|e| |] s']; try reflexivity. Qed.

(** The modules of the log, the latest first. *)
Definition ini (l : list event) : list nat :=
  flat_map (fun e => match e with Init m => [m] | _ => [] end) l.

Lemma flat_map_rev1 (f : event -> list nat) l : (forall e, f e = [] \/ exists x, f e = [x]) ->
  flat_map f (rev l) = rev (flat_map f l).
Proof.
  intros H. induction l as [|e l IH]; [reflexivity|]. simpl. rewrite flat_map_app, rev_app_distr, IH. simpl.
  rewrite app_nil_r. f_equal. destruct (H e) as [->|[x ->]]; reflexivity.
Qed.

Lemma inits_ini l : inits l = rev (ini l).
Proof.
  unfold inits, ini. apply flat_map_rev1. intros []; eauto.
Qed.

Section Link.
Variable G : graph.
Notation rq := (reqs G).

Definition cls_link (r : modrec) : kls :=
  match stat r with
  | Unlinked => KFresh | Linking => KActive | Linked | EvalAsync | Evaluated => KDone | _ => KBad
  end.

Definition enter_link (m i : nat) : M unit :=
  write m (set_stat Linking) ;;; write m (set_dfs i) ;;; l <- stack ;; set_stack (m :: l).

Definition pop_link (m : nat) : M unit :=
  l <- stack ;; unstack (fun t => write t (set_stat Linked)) m l.

Notation vlink := (visit rq cls_link (fun _ => ret tt) enter_link link_req (init_env G) pop_link).

Lemma inner_link_visit f : forall m i s, inner_link G f m i s = vlink f m i s.
Proof.
  induction f as [|f IH]; intros m i s; cbn [inner_link visit]; unfold bind at 1, read at 1, cls_link;
    destruct (stat (mods s m)); try reflexivity.
  cbv beta iota delta [bind write stack set_stack read enter_link popif pop_link].
  rewrite (requests_ext (inner_link G f) (vlink f) (link_req m) (link_req m)) by auto.
  destruct (requests _ _ _ _ _) as [[i'|e| |] s']; try reflexivity.
Qed.

Lemma unstack_link m : forall seg rst s, ~ In m seg ->
  exists s', unstack (fun t => write t (set_stat Linked)) m (seg ++ m :: rst) s = (Ok tt, s') /\
    stk s' = rst /\ cnt s' = cnt s /\ log s' = log s /\
    forall x, mods s' x = if in_dec Nat.eq_dec x (seg ++ [m]) then set_stat Linked (mods s x) else mods s x.
Proof.
  induction seg as [|t seg IH]; intros rst s Hm.
  - cbn [app unstack]. rewrite Nat.eqb_refl. eexists. split; [reflexivity|].
    cbn [mods stk cnt log]. split; [reflexivity|]. split; [reflexivity|]. split; [reflexivity|].
    intros x. destruct (Nat.eqb_spec x m) as [->|n].
    + destruct (in_dec Nat.eq_dec m [m]) as [h|h]; [reflexivity|exfalso; apply h; now left].
    + destruct (in_dec Nat.eq_dec x [m]) as [[h|[]]|h]; [congruence|reflexivity].
  - cbn [app unstack]. assert (Ht : t <> m) by (intros ->; apply Hm; now left).
    destruct (Nat.eqb_spec t m) as [e|_]; [contradiction|].
    unfold bind at 1, set_stack at 1. unfold bind at 1, write at 1.
    destruct (IH rst (St (fun x => if Nat.eqb x t then set_stat Linked (mods s t) else mods s x) (seg ++ m :: rst) (cnt s) (log s)))
      as (s' & E & e1 & e2 & e3 & e4); [intros h; apply Hm; now right|].
    exists s'. split; [exact E|]. split; [assumption|]. split; [assumption|]. split; [assumption|].
    intros x. rewrite e4. cbn [mods].
    destruct (in_dec Nat.eq_dec x (seg ++ [m])) as [h|h]; destruct (in_dec Nat.eq_dec x (t :: seg ++ [m])) as [h'|h'].
    + destruct (Nat.eqb_spec x t) as [->|]; reflexivity.
    + exfalso. apply h'. now right.
    + destruct h' as [->|h']; [|contradiction]. now rewrite Nat.eqb_refl.
    + destruct (Nat.eqb_spec x t) as [->|]; [exfalso; apply h'; now left|reflexivity].
Qed.

Section Run.
Variable U : list nat.
Variable s0 : st.
Variable m0 : nat.
Hypothesis HU : closed rq U.
Hypothesis Hm0 : In m0 U.
Hypothesis Hidle : forall x, stat (mods s0 x) <> Linking /\ stat (mods s0 x) <> Evaluating.
Hypothesis Hready : forall x, In x U -> stat (mods s0 x) = Unlinked \/ linked (stat (mods s0 x)) = true.
Hypothesis Hsound : forall x y, In x U -> linked (stat (mods s0 x)) = true -> In y (rq x) -> linked (stat (mods s0 y)) = true.
Hypothesis Hstk : stk s0 = [].

Definition J (P : nat -> Prop) (s : st) : Prop :=
  (forall x, stat (mods s0 x) <> Unlinked -> stat (mods s x) = stat (mods s0 x)) /\
  (forall x, stat (mods s0 x) = Unlinked ->
     stat (mods s x) = Unlinked \/ stat (mods s x) = Linking \/ stat (mods s x) = Linked) /\
  (forall x, rest (mods s x) = rest (mods s0 x)) /\ cnt s = cnt s0 /\
  exists l, log s = map Init l ++ log s0 /\ Forall P l.

Notation Jok := (J (fun x => init G x = None)).
Notation Jer := (J (fun _ => True)).

Lemma J_stat P s m : J P s -> stat (mods s m) = Linking -> stat (mods s0 m) = Unlinked.
Proof.
  intros (a & b & _) e. destruct (stat (mods s0 m)) eqn:E0; try reflexivity;
    pose proof (a m ltac:(congruence)); destruct (Hidle m); congruence.
Qed.

Lemma J_upd P s s' : J P s -> stk s' = stk s \/ True -> cnt s' = cnt s -> log s' = log s ->
  (forall x, rest (mods s' x) = rest (mods s x)) ->
  (forall x, stat (mods s' x) = stat (mods s x) \/
     (stat (mods s0 x) = Unlinked /\ (stat (mods s' x) = Linking \/ stat (mods s' x) = Linked))) ->
  J P s'.
Proof.
  intros (a & b & c & d & e) _ Hc Hl Hr H. split; [|split; [|split; [|split]]].
  - intros x Hx. destruct (H x) as [->|[h _]]; [auto|congruence].
  - intros x Hx. destruct (H x) as [->|[_ [h|h]]]; auto.
  - intros x. rewrite Hr. auto.
  - congruence.
  - now rewrite Hl.
Qed.

Definition cause (x e : nat) : Prop := stat (mods s0 x) = Unlinked /\ init G x = Some e.

Lemma link_search f : fresh cls_link U s0 <= f ->
  match inner_link G f m0 0 s0 with
  | (Ok _, s) => exists i nw, Inv rq cls_link (fun s => ini (log s)) U s0 m0 Jok s i nw /\ stk s = [] /\
                   cls_link (mods s m0) = KDone /\
                   (forall x, In x nw <-> cls_link (mods s0 x) = KFresh /\ reach rq m0 x)
  | (Thrown e, s) => (exists i nw, Inv rq cls_link (fun s => ini (log s)) U s0 m0 Jer s i nw) /\
                     (cls_link (mods s0 m0) = KFresh -> In m0 (stk s)) /\
                     exists x, reach rq m0 x /\ cause x e
  | _ => False
  end.
Proof.
  intros Hf. rewrite inner_link_visit.
  apply (search rq cls_link (fun _ => ret tt) enter_link link_req (init_env G) pop_link
           (fun s => ini (log s)) Jok (fun _ => Jer) cause U s0 m0); auto.
  - intros e0 s (a & b & c & d & l & e & _). split; [|split; [|split; [|split]]]; auto.
    exists l. split; [assumption|]. apply Forall_forall. auto.
  - intros s m _ _ He. exfalso. unfold cls_link in He. destruct (stat (mods s m)); discriminate.
  - intros s m i HJ _ Hk. eexists. split; [reflexivity|].
    cbn. rewrite Nat.eqb_refl. cbn. split; [reflexivity|]. split; [reflexivity|]. split; [reflexivity|].
    split; [reflexivity|]. split; [reflexivity|]. split.
    + apply (J_upd _ s); auto; intros x; cbn; destruct (Nat.eqb_spec x m) as [->|]; auto.
      right. split; [|left; reflexivity].
      unfold cls_link in Hk. destruct (stat (mods s m)) eqn:E; try discriminate.
      destruct HJ as (a & _). destruct (stat (mods s0 m)) eqn:E0; auto; rewrite a in E by congruence; congruence.
    + intros x Hx. apply Nat.eqb_neq in Hx. rewrite Hx. auto.
  - intros s m r HJ _ _ Hm Hr. left. unfold link_req, bind, read.
    assert (Hl : status_eqb (stat (mods s r)) Linking = match cls_link (mods s r) with KActive => true | _ => false end).
    { unfold cls_link. destruct (stat (mods s r)); reflexivity. }
    rewrite Hl. destruct (cls_link (mods s r)) eqn:Er.
    2:{ eexists. split; [reflexivity|]. split.
        { apply (J_upd _ s); auto; intros x; cbn; destruct (Nat.eqb_spec x m) as [->|]; auto. }
        cbn. split; [reflexivity|]. split; [reflexivity|]. rewrite Nat.eqb_refl. cbn. split; [|apply Nat.min_comm].
        intros x. destruct (Nat.eqb_spec x m) as [->|]; cbn; auto. split; [reflexivity|]. split; [reflexivity|]. congruence. }
    all: exists s; split; [reflexivity|]; auto 10.
  - intros s m HJ _ Hm H0. unfold init_env, bind, say.
    exists (St (mods s) (stk s) (cnt s) (Init m :: log s)). split.
    + destruct HJ as (a & b & c & d & l & e & h). destruct (init G m) as [er|] eqn:Ei.
      * right. exists er. split; [reflexivity|]. split.
        { split; [|assumption]. unfold cls_link in H0. destruct (stat (mods s0 m)); try discriminate. reflexivity. }
        split; [|split; [|split; [|split]]]; auto. exists (m :: l). cbn. rewrite e. split; [reflexivity|].
        apply Forall_forall. auto.
      * left. split; [reflexivity|].
        split; [|split; [|split; [|split]]]; auto. exists (m :: l). cbn. rewrite e. split; [reflexivity|].
        constructor; assumption.
    + split; [split; [|reflexivity]; auto|reflexivity].
  - intros s m seg rst HJ Hs Hm Hseg. unfold pop_link, bind, stack. rewrite Hs.
    destruct (unstack_link m seg rst s Hm) as (s' & E & e1 & e2 & e3 & e4).
    exists s'. split; [exact E|]. split; [assumption|]. split; [now rewrite e3|]. split.
    + apply (J_upd _ s); auto; intros x; rewrite e4; destruct (in_dec Nat.eq_dec x (seg ++ [m])) as [h|h]; auto.
      right. split; [|auto]. destruct (Hseg x h) as (_ & hk & _). eapply J_stat; [exact HJ|].
      unfold cls_link in hk. destruct (stat (mods s x)); try discriminate. reflexivity.
    + intros x. rewrite e4. destruct (in_dec Nat.eq_dec x (seg ++ [m])) as [h|h]; auto.
      split; [reflexivity|]. split; [contradiction|]. split; reflexivity.
      split; [contradiction|]. auto.
  - split; [|split; [|split; [|split]]]; auto. exists []. split; [reflexivity|constructor].
  - intros x Hx. unfold cls_link. destruct (Hready x Hx) as [->|h]; [auto|].
    destruct (stat (mods s0 x)); try discriminate; auto.
  - intros x y Hx Hd Hy. unfold cls_link in *.
    assert (h : linked (stat (mods s0 x)) = true) by (destruct (stat (mods s0 x)); try discriminate; reflexivity).
    pose proof (Hsound x y Hx h Hy) as h'. destruct (stat (mods s0 y)); try discriminate; reflexivity.
Qed.

Lemma undo_link l : forall s, NoDup l -> (forall x, In x l -> stat (mods s x) = Linking) ->
  exists s', iter link_undo l s = (Ok tt, s') /\ stk s' = stk s /\ cnt s' = cnt s /\ log s' = log s /\
    forall x, mods s' x = if in_dec Nat.eq_dec x l then set_stat Unlinked (mods s x) else mods s x.
Proof.
  induction l as [|t l IH]; intros s Hd Hl.
  - exists s. split; [reflexivity|]. auto.
  - cbn [iter]. unfold bind at 1, link_undo, bind, read, assert, write. rewrite (Hl t) by now left.
    cbn [status_eqb]. unfold ret. inversion Hd; subst.
    destruct (IH (St (fun x => if Nat.eqb x t then set_stat Unlinked (mods s t) else mods s x) (stk s) (cnt s) (log s)))
      as (s' & E & e1 & e2 & e3 & e4); [assumption|..].
    { intros x Hx. cbn [mods]. destruct (Nat.eqb_spec x t) as [->|]; [contradiction|]. apply Hl. now right. }
    exists s'. split; [exact E|]. split; [assumption|]. split; [assumption|]. split; [assumption|].
    intros x. rewrite e4. cbn [mods].
    destruct (in_dec Nat.eq_dec x l) as [h|h]; destruct (in_dec Nat.eq_dec x (t :: l)) as [h'|h'].
    + destruct (Nat.eqb_spec x t) as [->|]; reflexivity.
    + exfalso. apply h'. now right.
    + destruct h' as [->|h']; [|contradiction]. now rewrite Nat.eqb_refl.
    + destruct (Nat.eqb_spec x t) as [->|]; [exfalso; apply h'; now left|reflexivity].
Qed.
End Run.

Lemma ini_map l r : ini (map Init l ++ r) = l ++ ini r.
Proof. induction l as [|x l IH]; [reflexivity|]. cbn. unfold ini in IH. now rewrite IH. Qed.

Lemma k_unl r : cls_link r = KFresh <-> stat r = Unlinked.
Proof. unfold cls_link. destruct (stat r); split; congruence. Qed.
Lemma k_ling r : cls_link r = KActive <-> stat r = Linking.
Proof. unfold cls_link. destruct (stat r); split; congruence. Qed.
Lemma k_done r : cls_link r = KDone <-> linked (stat r) = true.
Proof. unfold cls_link. destruct (stat r); cbn; split; congruence. Qed.

Theorem link_correct U s m f :
  closed rq U -> In m U -> length U <= f ->
  (forall x, stat (mods s x) <> Linking /\ stat (mods s x) <> Evaluating) ->
  (forall x, In x U -> stat (mods s x) = Unlinked \/ linked (stat (mods s x)) = true) ->
  (forall x y, In x U -> linked (stat (mods s x)) = true -> In y (rq x) -> linked (stat (mods s y)) = true) ->
  match link G f m s with
  | (Ok _, s') =>
      (forall x, stat (mods s x) = Unlinked -> reach rq m x -> stat (mods s' x) = Linked) /\
      (forall x, stat (mods s x) <> Unlinked \/ ~ reach rq m x -> stat (mods s' x) = stat (mods s x)) /\
      (forall x, rest (mods s' x) = rest (mods s x)) /\ cnt s' = cnt s /\
      exists new, log s' = rev (map Init new) ++ log s /\ NoDup new /\
        (forall x, In x new <-> stat (mods s x) = Unlinked /\ reach rq m x) /\
        (forall x, In x new -> init G x = None) /\
        in_order rq (fun y => stat (mods s y) = Unlinked) new
  | (Thrown e, s') =>
      (exists x, reach rq m x /\ stat (mods s x) = Unlinked /\ init G x = Some e) /\
      stat (mods s' m) = Unlinked /\
      (forall x, stat (mods s' x) = stat (mods s x) \/
         (stat (mods s x) = Unlinked /\ stat (mods s' x) = Linked /\ reach rq m x /\
          forall y, reach rq x y -> linked (stat (mods s' y)) = true)) /\
      (forall x, rest (mods s' x) = rest (mods s x)) /\ cnt s' = cnt s /\
      exists new, log s' = rev (map Init new) ++ log s
  | _ => False
  end.
Proof.
  intros HU HmU Hf Hidle Hready Hsound.
  set (s1 := St (mods s) [] (cnt s) (log s)).
  pose proof (link_search U s1 m HU HmU Hidle Hready Hsound eq_refl f) as HS.
  assert (Hfr : fresh cls_link U s1 <= f).
  { etransitivity; [apply fresh_len|exact Hf]. }
  specialize (HS Hfr).
  unfold link, bind at 1, read at 1, bind at 1.
  destruct (Hidle m) as [i1 i2].
  assert (Ea : assert (negb (status_eqb (stat (mods s m)) Linking) && negb (status_eqb (stat (mods s m)) Evaluating)) s = (Ok tt, s)).
  { destruct (stat (mods s m)); try reflexivity; contradiction. }
  rewrite Ea. unfold bind at 1, set_stack at 1. fold s1.
  destruct (inner_link G f m 0 s1) as [[i|e| |] s']; try contradiction.
  - destruct HS as (i' & nw & I & Hs & Hd & Hnw).
    destruct (i_J _ _ _ _ _ _ _ _ _ _ I) as (j1 & j2 & j3 & j4 & l & j5 & j6).
    apply k_done in Hd. unfold bind, read, stack, assert.
    assert (El : status_eqb (stat (mods s' m)) Linked || status_eqb (stat (mods s' m)) EvalAsync || status_eqb (stat (mods s' m)) Evaluated = true).
    { destruct (stat (mods s' m)); try discriminate; reflexivity. }
    rewrite El. unfold ret. rewrite Hs.
    assert (El2 : l = nw).
    { pose proof (i_marks _ _ _ _ _ _ _ _ _ _ I) as mk. cbn beta in mk. rewrite j5, ini_map in mk. now apply app_inv_tail in mk. }
    subst l.
    assert (Hreach : forall x, reach rq m x -> linked (stat (mods s' x)) = true).
    { intros x Hx. apply k_done. eapply (done_reach rq cls_link); eauto. now apply k_done. }
    split; [|split; [|split; [|split]]].
    + intros x Hx Hr. pose proof (Hreach x Hr). destruct (j2 x Hx) as [h|[h|h]]; [rewrite h in H; discriminate..|assumption].
    + intros x Hx. destruct (stat (mods s x)) eqn:E0; try (rewrite <- E0; apply (j1 x); cbn; congruence).
      destruct Hx as [h|h]; [congruence|].
      destruct (j2 x E0) as [h'|[h'|h']]; [assumption|exfalso..].
      * destruct (in_dec Nat.eq_dec x U) as [hu|hu].
        -- apply k_ling in h'. apply (i_act _ _ _ _ _ _ _ _ _ _ I) in h'; [|assumption]. now rewrite Hs in h'.
        -- pose proof (i_out _ _ _ _ _ _ _ _ _ _ I x hu) as ho. unfold cls_link in ho. cbn in ho. rewrite h', E0 in ho. discriminate.
      * destruct (in_dec Nat.eq_dec x U) as [hu|hu].
        -- apply h. apply (i_mR _ _ _ _ _ _ _ _ _ _ I); [assumption|now apply k_unl|]. unfold cls_link. rewrite h'. discriminate.
        -- pose proof (i_out _ _ _ _ _ _ _ _ _ _ I x hu) as ho. unfold cls_link in ho. cbn in ho. rewrite h', E0 in ho. discriminate.
    + exact j3.
    + exact j4.
    + exists (rev nw). rewrite map_rev, rev_involutive. split; [exact j5|]. split; [apply NoDup_rev, (i_nwd _ _ _ _ _ _ _ _ _ _ I)|].
      split; [|split].
      * intros x. rewrite <- in_rev, Hnw, k_unl. reflexivity.
      * intros x Hx. rewrite <- in_rev in Hx. rewrite Forall_forall in j6. auto.
      * intros a x b E y Hy Hdu Hr. apply (i_order _ _ _ _ _ _ _ _ _ _ I a x b E y Hy); [|assumption].
        now apply k_unl.
  - destruct HS as ((i' & nw & I) & Hin & x & Hx & Hc1 & Hc2).
    destruct (i_J _ _ _ _ _ _ _ _ _ _ I) as (j1 & j2 & j3 & j4 & l & j5 & j6).
    unfold bind at 1, stack at 1, bind at 1.
    destruct (undo_link (stk s') s') as (s2 & E2 & e1 & e2 & e3 & e4).
    { apply (i_nodup _ _ _ _ _ _ _ _ _ _ I). }
    { intros y Hy. apply k_ling. apply (i_act _ _ _ _ _ _ _ _ _ _ I); [|assumption]. now apply (i_stkU _ _ _ _ _ _ _ _ _ _ I). }
    rewrite E2.
    assert (Hm : stat (mods s m) = Unlinked).
    { destruct (Hready m HmU) as [h|h]; [assumption|exfalso].
      assert (linked (stat (mods s x)) = true).
      { clear - Hx h Hsound HmU HU. apply clos_rt_rt1n in Hx. destruct HU as [_ HU].
        induction Hx as [m|m y z Hmy _ IH]; [assumption|]. apply IH; eauto. }
      cbn in Hc1. rewrite Hc1 in H. discriminate. }
    assert (Hmin : In m (stk s')) by (apply Hin, k_unl; exact Hm).
    assert (Hm2 : stat (mods s2 m) = Unlinked).
    { rewrite e4. destruct (in_dec Nat.eq_dec m (stk s')); [reflexivity|contradiction]. }
    unfold bind, read, assert. rewrite Hm2. cbn [status_eqb]. unfold ret, thrown.
    split; [exists x; auto|]. split; [assumption|]. split; [|split].
    + intros y. rewrite e4. destruct (in_dec Nat.eq_dec y (stk s')) as [h|h].
      * left. cbn [stat set_stat]. symmetry. apply k_unl. apply (i_old2 _ _ _ _ _ _ _ _ _ _ I).
        -- now apply (i_stkU _ _ _ _ _ _ _ _ _ _ I).
        -- right. apply (i_act _ _ _ _ _ _ _ _ _ _ I); [|assumption]. now apply (i_stkU _ _ _ _ _ _ _ _ _ _ I).
      * destruct (in_dec Nat.eq_dec y U) as [hu|hu].
        2:{ left. pose proof (i_out _ _ _ _ _ _ _ _ _ _ I y hu) as ho.
            destruct (stat (mods s y)) eqn:E0; try (rewrite <- E0; apply (j1 y); cbn; congruence).
            apply k_unl. rewrite ho. now apply k_unl. }
        destruct (stat (mods s y)) eqn:E0; try (left; rewrite <- E0; apply (j1 y); cbn; congruence).
        destruct (j2 y E0) as [h'|[h'|h']]; [now left|..].
        -- exfalso. apply h. apply (i_act _ _ _ _ _ _ _ _ _ _ I); [assumption|now apply k_ling].
        -- right. split; [reflexivity|]. split; [assumption|]. split.
           ++ apply (i_mR _ _ _ _ _ _ _ _ _ _ I); [assumption|now apply k_unl|]. unfold cls_link. rewrite h'. discriminate.
           ++ intros z Hz.
              assert (Hdz : In z U /\ linked (stat (mods s' z)) = true).
              { assert (Hdy : linked (stat (mods s' y)) = true) by now rewrite h'.
                clear h h' E0. apply clos_rt_rt1n in Hz. destruct HU as [_ HU2].
                induction Hz as [y|y w z Hyw _ IH]; [auto|]. apply IH; [eauto|].
                apply k_done. apply k_done in Hdy. eapply (i_closed _ _ _ _ _ _ _ _ _ _ I); eassumption. }
              destruct Hdz as [hz1 hz2]. rewrite e4. destruct (in_dec Nat.eq_dec z (stk s')) as [hs|hs]; [|assumption].
              exfalso. apply (i_act _ _ _ _ _ _ _ _ _ _ I) in hs; [|assumption]. apply k_ling in hs. rewrite hs in hz2. discriminate.
    + intros y. rewrite e4. etransitivity; [|exact (j3 y)]. destruct (in_dec Nat.eq_dec y (stk s')); reflexivity.
    + split; [rewrite e2; exact j4|]. rewrite e3.
      exists (rev l). rewrite map_rev, rev_involutive. exact j5.
Qed.
End Link.
