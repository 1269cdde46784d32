(** Proofs about wait and notify (WaitModel.v). *)
From Coq Require Import ZArith List Bool Arith Lia.
Import ListNotations.
From Verif Require Import WaitModel WaitSpec.

(** ** Logs *)
Definition entered (a w p : nat) (l : list event) : Prop := exists v x, In (EEnter a w p v x) l.
Definition done (w : nat) (l : list event) : Prop := exists a r, In (EDone a w r) l.
Definition cause (e : bool) (w : nat) (l : list event) : Prop :=
  if e then In (EExpire w) l else ~ In (EExpire w) l /\ (In (ESpurious w) l \/ In w (signals l)).
Definition about (e : event) : option nat :=
  match e with
  | EEnter _ w _ _ _ | ESignal _ w | EExpire w | ESpurious w | EDone _ w _ => Some w
  | _ => None
  end.

Lemma queue_snoc : forall l e p, queue (l ++ [e]) p = arrive p (queue l p) e.
Proof. intros. unfold queue. rewrite fold_left_app. reflexivity. Qed.
Lemma value_snoc : forall m l e p, value m (l ++ [e]) p =
  match e with EPoke q v => if q =? p then v else value m l p | _ => value m l p end.
Proof. intros. unfold value. rewrite fold_left_app. reflexivity. Qed.
Lemma signals_app : forall l r, signals (l ++ r) = signals l ++ signals r.
Proof. induction l as [|e l IH]; intro r; [reflexivity|]. destruct e; cbn; rewrite IH; reflexivity. Qed.
Lemma signals_in : forall l w, In w (signals l) <-> exists a, In (ESignal a w) l.
Proof.
  induction l as [|e l IH]; intro w; [cbn; split; [tauto|intros [a []]]|].
  assert (D : (exists a, e = ESignal a w) \/ forall a, e <> ESignal a w).
  { destruct e; try (right; discriminate). destruct (Nat.eq_dec w0 w) as [->|N]; [left; eauto|right; congruence]. }
  split.
  - intro H. assert (H' : (exists a, e = ESignal a w) \/ In w (signals l)).
    { destruct e; cbn in H; auto. destruct H as [->|H]; eauto. }
    destruct H' as [[a ->]|H']; [exists a; left; reflexivity|]. apply IH in H'. destruct H' as [a H']. exists a. right. exact H'.
  - intros [a [->|H]]; [left; reflexivity|]. assert (In w (signals l)) by (apply IH; eauto). destruct e; cbn; auto.
Qed.
Lemma gone_in : forall w q x, In x (gone w q) <-> In x q /\ x <> w.
Proof.
  intros w q x. unfold gone. rewrite filter_In. rewrite negb_true_iff, Nat.eqb_neq. tauto.
Qed.
Lemma gone_nodup : forall w q, NoDup q -> NoDup (gone w q).
Proof. intros. apply NoDup_filter. assumption. Qed.
Lemma gone_head : forall w q, NoDup (w :: q) -> gone w (w :: q) = q.
Proof.
  intros w q N. unfold gone. cbn. rewrite Nat.eqb_refl. cbn. inversion N as [|? ? I _]; subst.
  clear N. induction q as [|x q IH]; [reflexivity|]. cbn.
  destruct (Nat.eqb_spec x w) as [->|D]; [exfalso; apply I; left; reflexivity|]. cbn. f_equal. apply IH.
  intro H. apply I. right. exact H.
Qed.
Lemma gone_not_in : forall w q, ~ In w q -> gone w q = q.
Proof.
  intros w q. unfold gone. induction q as [|x q IH]; intro I; [reflexivity|]. cbn.
  destruct (Nat.eqb_spec x w) as [->|D]; [exfalso; apply I; left; reflexivity|]. cbn. f_equal. apply IH.
  intro H. apply I. right. exact H.
Qed.
Lemma in_snoc : forall A (l : list A) e x, In x (l ++ [e]) <-> In x l \/ x = e.
Proof. intros. rewrite in_app_iff. cbn. intuition. Qed.


Section Log.
  Variable m : nat -> Z.

  Definition next_ok (l : list event) (e : event) : Prop :=
    match e with
    | EPoke _ _ | ENotify _ _ _ => True
    | EEnter a w pos v x => (forall f, In f l -> about f <> Some w) /\ x = value m l pos /\ v = x
    | ENotEqual a pos v x => x = value m l pos /\ v <> x
    | ESignal a w => exists pos r, queue l pos = w :: r
    | ECount a n => exists l1 pos c l2, l = l1 ++ ENotify a pos c :: l2 /\ Forall (inside_notify a) l2 /\
        signals l2 = take c (queue l1 pos) /\ n = length (signals l2)
    | EExpire w | ESpurious w => exists p, In w (queue l p)
    | EDone a w r => ~ done w l /\ (exists p, entered a w p l) /\
        (r = RTimedOut /\ cause true w l \/ r = ROk /\ cause false w l)
    end.
  Inductive LogOK : list event -> Prop :=
  | LNil : LogOK []
  | LSnoc : forall l e, LogOK l -> next_ok l e -> LogOK (l ++ [e]).

  (** Waiters in a queue have entered there, are not notified and not done. *)
  Lemma queue_facts : forall l, LogOK l ->
    (forall p, NoDup (queue l p)) /\
    (forall w p, In w (queue l p) -> (exists a, entered a w p l) /\ ~ In w (signals l) /\ ~ done w l).
  Proof.
    induction 1 as [|l e L [IN IQ] N]; [split; [intro; constructor|intros w p []]|].
    split.
    - intro p. rewrite queue_snoc. destruct e; cbn [arrive]; auto; try (apply gone_nodup; auto).
      destruct (Nat.eqb_spec pos p) as [->|D]; [|auto].
      destruct N as (F & _ & _). pose proof (Add_app w (queue l p) []) as H. rewrite app_nil_r in H.
      apply (NoDup_Add H). split; [apply IN|]. intro Q. destruct (IQ w p Q) as ((b & v' & x' & Q') & _).
      eapply F; [exact Q'|reflexivity].
    - assert (Mono : forall w p, (exists a, entered a w p l) -> exists a, entered a w p (l ++ [e])).
      { intros w p (b & v & x & Q). exists b, v, x. apply in_snoc. auto. }
      assert (Old : forall w p, In w (queue l p) -> about e <> Some w \/ (exists w', e = EExpire w' \/ e = ESpurious w') ->
        (exists a, entered a w p (l ++ [e])) /\ ~ In w (signals (l ++ [e])) /\ ~ done w (l ++ [e])).
      { intros w p Q A. destruct (IQ w p Q) as (E & S & D). split; [auto|]. split.
        - rewrite signals_app, in_app_iff. intros [H|H]; [auto|].
          destruct e; cbn in H; try tauto. destruct H as [->|[]]. destruct A as [A|(w' & [A|A])]; [cbn in A; congruence| |]; discriminate.
        - intros (b & r & H). apply in_snoc in H. destruct H as [H|H]; [apply D; exists b, r; exact H|].
          subst e. destruct A as [A|(w' & [A|A])]; [cbn in A; congruence| |]; discriminate. }
      intros w p Q. rewrite queue_snoc in Q. destruct e; cbn [arrive] in Q;
        try (apply Old; [exact Q|left; cbn; discriminate]);
        try (apply Old; [exact Q|right; eauto]).
      + destruct (Nat.eqb_spec pos p) as [->|D].
        * apply in_snoc in Q. destruct Q as [Q| ->].
          -- apply Old; [exact Q|]. left. cbn. intro X. injection X as ->. destruct N as (F & _).
             destruct (IQ w p Q) as ((b & v' & x' & Q') & _). eapply F; [exact Q'|reflexivity].
          -- destruct N as (F & _). split; [exists a, v, x; apply in_snoc; auto|]. split.
             ++ rewrite signals_app, app_nil_r. intro H. apply signals_in in H. destruct H as [b H].
                eapply F; [exact H|reflexivity].
             ++ intros (b & r & H). apply in_snoc in H. destruct H as [H|H]; [|discriminate].
                eapply F; [exact H|reflexivity].
        * apply Old; [exact Q|]. left. cbn. intro X. injection X as ->. destruct N as (F & _).
          destruct (IQ w p Q) as ((b & v' & x' & Q') & _). eapply F; [exact Q'|reflexivity].
      + apply gone_in in Q. destruct Q as [Q D]. apply Old; [exact Q|]. left. cbn. congruence.
      + apply gone_in in Q. destruct Q as [Q D]. apply Old; [exact Q|]. left. cbn. congruence.
  Qed.

  Lemma enter_unique : forall l, LogOK l -> forall a w p a' p', entered a w p l -> entered a' w p' l -> a = a' /\ p = p'.
  Proof.
    induction 1 as [|l e L IH N]; intros a w p a' p' (v & x & I) (v' & x' & I'); [destruct I|].
    apply in_snoc in I. apply in_snoc in I'. destruct I as [I|I], I' as [I'|I'].
    - eapply IH; [exists v, x; exact I|exists v', x'; exact I'].
    - subst e. destruct N as (F & _). exfalso. eapply F; [exact I|reflexivity].
    - subst e. destruct N as (F & _). exfalso. eapply F; [exact I'|reflexivity].
    - split; congruence.
  Qed.

  Lemma signals_nodup : forall l, LogOK l -> NoDup (signals l).
  Proof.
    induction 1 as [|l e L IH N]; [constructor|]. rewrite signals_app.
    destruct e; cbn [signals]; try (rewrite app_nil_r; exact IH).
    pose proof (Add_app w (signals l) []) as H. rewrite app_nil_r in H. apply (NoDup_Add H). split; [exact IH|].
    destruct N as (p & r & Q). destruct (queue_facts l L) as [_ IQ]. apply (IQ w p). rewrite Q. left. reflexivity.
  Qed.

  (** After its end, nothing happens to a waiter. *)
  Lemma done_facts : forall l, LogOK l -> forall a w r, In (EDone a w r) l ->
    r = RTimedOut /\ cause true w l \/ r = ROk /\ cause false w l.
  Proof.
    induction 1 as [|l e L IH N]; intros a w r I; [destruct I|].
    assert (Same : cause true w l -> cause true w (l ++ [e])).
    { intro C. apply in_snoc. auto. }
    assert (Same' : e <> EExpire w -> cause false w l -> cause false w (l ++ [e])).
    { intros D [C1 C2]. split.
      - rewrite in_snoc. intros [H|H]; [auto|congruence].
      - rewrite in_snoc, signals_app, in_app_iff. tauto. }
    apply in_snoc in I. destruct I as [I|I].
    - destruct (IH a w r I) as [[E C]|[E C]]; [left; auto|]. right. split; [exact E|]. apply Same'; [|exact C].
      intros ->. destruct N as [p Q]. destruct (queue_facts l L) as [_ IQ]. apply (IQ w p Q). exists a, r. exact I.
    - subst e. destruct N as (_ & _ & [[E C]|[E C]]); [left; auto|]. right. split; [exact E|]. apply Same'; [discriminate|exact C].
  Qed.

  (** A notified waiter is not blocked any more. *)
  Lemma signal_order : forall l, LogOK l -> forall l1 a w l2, l = l1 ++ ESignal a w :: l2 ->
    ~ In (EExpire w) l2 /\ ~ In (ESpurious w) l2.
  Proof.
    induction 1 as [|l e L IH N]; intros l1 a w l2 E; [destruct l1; discriminate|].
    destruct l2 as [|f l2 _] using rev_ind; [cbn; tauto|].
    assert (E' : l ++ [e] = (l1 ++ ESignal a w :: l2) ++ [f]) by (rewrite E, <- app_assoc; reflexivity).
    apply app_inj_tail in E'. destruct E' as [E1 ->].
    assert (X : forall p, ~ In w (queue l p)).
    { intros p Q. destruct (queue_facts l L) as [_ IQ]. destruct (IQ w p Q) as (_ & Y & _). apply Y. apply signals_in. exists a.
      rewrite E1. apply in_or_app. right. left. reflexivity. }
    destruct (IH l1 a w l2 E1) as [H1 H2]. split.
    - rewrite in_snoc. intros [H|H]; [auto|]. subst f. destruct N as [p Q]. apply (X p Q).
    - rewrite in_snoc. intros [H|H]; [auto|]. subst f. destruct N as [p Q]. apply (X p Q).
  Qed.

  Lemma last_notify : forall (a : nat) l1 p c l2 l1' p' c' l2',
    l1 ++ ENotify a p c :: l2 = l1' ++ ENotify a p' c' :: l2' ->
    (forall q d, ~ In (ENotify a q d) l2) -> (forall q d, ~ In (ENotify a q d) l2') ->
    l1 = l1' /\ p = p' /\ c = c' /\ l2 = l2'.
  Proof.
    intros a. induction l1 as [|x l1 IH]; intros p c l2 l1' p' c' l2' E H H'; destruct l1' as [|x' l1']; cbn in E.
    - injection E as -> -> ->. auto.
    - exfalso. injection E as <- E. apply (H p' c'). rewrite E. apply in_or_app. right. left. reflexivity.
    - exfalso. injection E as -> E. apply (H' p c). rewrite <- E. apply in_or_app. right. left. reflexivity.
    - injection E as -> E. destruct (IH _ _ _ _ _ _ _ E H H') as (-> & -> & -> & ->). auto.
  Qed.

  Lemma notify_exact_ok : forall l, LogOK l -> notify_exact l.
  Proof.
    induction 1 as [|l e L IH N]; intros l1 a pos c l2 n l3 E F; [destruct l1; discriminate|].
    destruct l3 as [|f l3 _] using rev_ind.
    - assert (E' : l ++ [e] = (l1 ++ ENotify a pos c :: l2) ++ [ECount a n]).
      { rewrite E, <- app_assoc. reflexivity. }
      apply app_inj_tail in E'. destruct E' as [E1 ->].
      destruct N as (k1 & pos' & c' & k2 & E2 & I & S & C).
      assert (F' : forall q d, ~ In (ENotify a q d) k2).
      { intros q d Q. rewrite Forall_forall in I. apply I in Q. exact Q. }
      rewrite E1 in E2. destruct (last_notify a _ _ _ _ _ _ _ _ E2 F F') as (-> & -> & -> & ->). auto.
    - assert (E' : l ++ [e] = (l1 ++ ENotify a pos c :: l2 ++ ECount a n :: l3) ++ [f]).
      { rewrite E. rewrite <- app_assoc. cbn. rewrite <- app_assoc. reflexivity. }
      apply app_inj_tail in E'. destruct E' as [E1 _]. eapply IH; [exact E1|exact F].
  Qed.

  Lemma compare_ok : forall l, LogOK l -> forall l1 l2,
    (forall a w p v x, l = l1 ++ EEnter a w p v x :: l2 -> x = value m l1 p /\ v = x) /\
    (forall a p v x, l = l1 ++ ENotEqual a p v x :: l2 -> x = value m l1 p /\ v <> x).
  Proof.
    induction 1 as [|l e L IH N]; intros l1 l2; [split; intros; destruct l1; discriminate|].
    destruct l2 as [|f l2 _] using rev_ind.
    - split.
      + intros a w p v x E. apply app_inj_tail in E. destruct E as [-> ->]. destruct N as (_ & N1 & N2). auto.
      + intros a p v x E. apply app_inj_tail in E. destruct E as [-> ->]. exact N.
    - split.
      + intros a w p v x E. change (EEnter a w p v x :: l2 ++ [f]) with ((EEnter a w p v x :: l2) ++ [f]) in E.
        rewrite app_assoc in E. apply app_inj_tail in E. destruct E as [E _]. exact (proj1 (IH l1 l2) _ _ _ _ _ E).
      + intros a p v x E. change (ENotEqual a p v x :: l2 ++ [f]) with ((ENotEqual a p v x :: l2) ++ [f]) in E.
        rewrite app_assoc in E. apply app_inj_tail in E. destruct E as [E _]. exact (proj2 (IH l1 l2) _ _ _ _ E).
  Qed.

  (** Without spurious and late wake-ups every "ok" belongs to one notification. *)
  Lemma matched_ok : forall l, LogOK l -> no_spurious l -> no_late l -> matched l.
  Proof.
    intros l L NS NL. split; [apply signals_nodup, L|]. intros a w r D.
    destruct (done_facts l L a w r D) as [[-> C]|[-> [C1 C2]]].
    - split; [discriminate|]. intro H. exfalso. apply signals_in in H. destruct H as [b H].
      apply in_split in H. destruct H as (l1 & l2 & E). cbn in C. pose proof C as C'. rewrite E in C'.
      apply in_app_or in C'. destruct C' as [C'|[C'|C']]; [|discriminate|].
      + exact (NL _ _ _ _ E C').
      + destruct (signal_order l L l1 b w l2 E) as [X _]. exact (X C').
    - split; [|reflexivity]. intros _. destruct C2 as [C2|C2]; [exfalso; eapply NS, C2|exact C2].
  Qed.
End Log.
