(** The states of WaitModel.v have the logs of WaitProofs.v. *)
From Coq Require Import ZArith List Bool Arith Lia.
Import ListNotations.
From Verif Require Import WaitModel WaitSpec WaitProofs.

(** ** Lists *)
Lemma nth_lt : forall A (l : list A) i x, nth_error l i = Some x -> i < length l.
Proof. intros A l i x E. apply nth_error_Some. congruence. Qed.
Lemma set_nth_same : forall A (l : list A) i x, i < length l -> nth_error (set_nth l i x) i = Some x.
Proof.
  intros A l i x L. unfold set_nth. rewrite nth_error_app2; rewrite firstn_length, Nat.min_l by lia; [|lia].
  rewrite Nat.sub_diag. reflexivity.
Qed.
Lemma set_nth_other : forall A (l : list A) i j x, i < length l -> j <> i -> nth_error (set_nth l i x) j = nth_error l j.
Proof.
  induction l as [|y l IH]; intros i j x L N; [cbn in L; lia|].
  destruct i as [|i]; destruct j as [|j]; try lia; try reflexivity.
  change (set_nth (y :: l) (S i) x) with (y :: set_nth l i x). cbn. apply IH; [cbn in L|]; lia.
Qed.
Lemma set_nth_length : forall A (l : list A) i x, i < length l -> length (set_nth l i x) = length l.
Proof.
  intros A l i x L. unfold set_nth. rewrite app_length, firstn_length. cbn [length]. rewrite skipn_length. lia.
Qed.

Lemma mem_nat_in : forall w l, mem_nat w l = true <-> In w l.
Proof.
  intros w l. unfold mem_nat. rewrite existsb_exists. split.
  - intros (x & I & E). apply Nat.eqb_eq in E. congruence.
  - intro I. exists w. split; [exact I|]. apply Nat.eqb_refl.
Qed.

(** ** Waiter lists *)
Lemma find_app : forall ls pos p, find_list ls pos = None ->
  find_list (ls ++ [(pos, [])]) p = if p =? pos then Some [] else find_list ls p.
Proof.
  induction ls as [|[q ws] ls IH]; intros pos p E; cbn in *.
  - rewrite Nat.eqb_sym. reflexivity.
  - destruct (Nat.eqb_spec q pos) as [->|D]; [discriminate|].
    destruct (Nat.eqb_spec q p) as [->|D2].
    + destruct (Nat.eqb_spec p pos); [congruence|reflexivity].
    + apply IH, E.
Qed.
Lemma get_qv : forall ls pos p, qv (get_waiter_list ls pos) p = qv ls p.
Proof.
  intros ls pos p. unfold get_waiter_list, qv. destruct (find_list ls pos) eqn:E; [reflexivity|].
  rewrite find_app by exact E. destruct (Nat.eqb_spec p pos) as [->|D]; [rewrite E|]; reflexivity.
Qed.
Lemma get_found : forall ls pos, find_list (get_waiter_list ls pos) pos <> None.
Proof.
  intros ls pos. unfold get_waiter_list. destruct (find_list ls pos) eqn:E; [congruence|].
  rewrite find_app, Nat.eqb_refl by exact E. discriminate.
Qed.
Lemma upd_find : forall ls pos f p, find_list (upd_list ls pos f) p =
  if p =? pos then option_map f (find_list ls pos) else find_list ls p.
Proof.
  induction ls as [|[q ws] ls IH]; intros pos f p; cbn; [destruct (p =? pos); reflexivity|].
  destruct (Nat.eqb_spec q pos) as [->|D]; cbn.
  - rewrite (Nat.eqb_sym p pos). destruct (pos =? p); reflexivity.
  - destruct (Nat.eqb_spec q p) as [->|D2].
    + destruct (Nat.eqb_spec p pos); [congruence|reflexivity].
    + apply IH.
Qed.
Lemma upd_qv : forall ls pos f p, find_list ls pos <> None ->
  qv (upd_list ls pos f) p = if p =? pos then f (qv ls pos) else qv ls p.
Proof.
  intros ls pos f p N. unfold qv. rewrite upd_find. destruct (p =? pos); [|reflexivity].
  destruct (find_list ls pos); [reflexivity|congruence].
Qed.
Lemma unlink_qv : forall ls w p, qv (unlink ls w) p = gone w (qv ls p).
Proof.
  intros ls w p. unfold qv. induction ls as [|[q ws] ls IH]; cbn; [reflexivity|].
  destruct (q =? p); [reflexivity|exact IH].
Qed.

(** ** Agents *)
Definition holding (p : pc) : bool := match p with PHeld _ | PNotify _ _ _ | PAwake _ _ _ | PUnlock => true | _ => false end.

Definition pc_ok (l : list event) (a : nat) (p : pc) : Prop :=
  match p with
  | PBlocked w p _ => entered a w p l /\ In w (queue l p) /\ ~ In (EExpire w) l /\ ~ In (ESpurious w) l
  | PWoken w p e | PAwake w p e => entered a w p l /\ ~ done w l /\ cause e w l
  | PNotify pos c n => exists l1 l2, l = l1 ++ ENotify a pos c :: l2 /\ Forall (inside_notify a) l2 /\
      queue l1 pos = signals l2 ++ queue l pos /\ n = length (signals l2) /\ (forall k, c = Some k -> n <= k)
  | _ => True
  end.

Definition agent_ok (l : list event) (lk : option nat) (a : nat) (g : agent) : Prop :=
  (holding (at_ g) = true <-> lk = Some a) /\ pc_ok l a (at_ g) /\
  (forall pos v, at_ g <> PHeld (OPoke pos v)).

Record good (m : nat -> Z) (s : st) : Prop := mkGood {
  g_log : LogOK m (log s);
  g_q : forall p, qv (lists s) p = queue (log s) p;
  g_cells : forall p, cells s p = value m (log s) p;
  g_agents : forall a g, nth_error (agents s) a = Some g -> agent_ok (log s) (lock s) a g;
  g_lock : forall a, lock s = Some a -> a < length (agents s);
  g_fresh : forall e w, In e (log s) -> about e = Some w -> w < fresh s;
  g_live : forall w, In w (live s) <-> (exists a p, entered a w p (log s)) /\ ~ done w (log s);
  g_crash : crashed s = false
}.

Definition quiet_ev (e : event) : Prop := match e with EPoke _ _ | EExpire _ | ESpurious _ => True | _ => False end.
(** The waiter an agent has. *)
Definition waiter (p : pc) : option nat :=
  match p with PBlocked w _ _ | PWoken w _ _ | PAwake w _ _ => Some w | _ => None end.

Lemma entered_snoc : forall a w p l e, entered a w p l -> entered a w p (l ++ [e]).
Proof. intros a w p l e (v & x & I). exists v, x. apply in_snoc. auto. Qed.
Lemma not_done_snoc : forall w l e, about e <> Some w \/ (forall a r, e <> EDone a w r) -> ~ done w l -> ~ done w (l ++ [e]).
Proof.
  intros w l e A D (b & r & I). apply in_snoc in I. destruct I as [I|I]; [apply D; exists b, r; exact I|].
  subst e. destruct A as [A|A]; [cbn in A; congruence|eapply A; reflexivity].
Qed.
Lemma cause_snoc : forall b w l e, e <> EExpire w -> cause b w l -> cause b w (l ++ [e]).
Proof.
  intros [] w l e D C; cbn in *.
  - apply in_snoc. auto.
  - destruct C as [C1 C2]. split; [rewrite in_snoc; intuition congruence|].
    rewrite in_snoc, signals_app, in_app_iff. tauto.
Qed.
Lemma quiet_inside : forall a e, quiet_ev e -> inside_notify a e.
Proof. intros a []; cbn; tauto. Qed.
Lemma quiet_queue : forall l e p, quiet_ev e -> queue (l ++ [e]) p = queue l p.
Proof. intros l e p Q. rewrite queue_snoc. destruct e; cbn in Q; try tauto; reflexivity. Qed.
Lemma quiet_signals : forall l e, quiet_ev e -> signals (l ++ [e]) = signals l.
Proof. intros l e Q. rewrite signals_app. destruct e; cbn in Q; try tauto; apply app_nil_r. Qed.

(** An agent that does not move. *)
Lemma pc_snoc : forall l b p e, pc_ok l b p ->
  (forall w, waiter p = Some w -> about e <> Some w) ->
  (forall pos c n, p = PNotify pos c n -> quiet_ev e) ->
  pc_ok (l ++ [e]) b p.
Proof.
  intros l b p e P W Q. destruct p as [|o|o|w p tm|w p ex|w p ex|pos c n|]; cbn in *; auto.
  - destruct P as (P1 & P2 & P3 & P4). specialize (W w eq_refl).
    split; [apply entered_snoc, P1|]. split.
    + rewrite queue_snoc. destruct e; cbn [arrive]; auto.
      * destruct (pos =? p); [|auto]. apply in_snoc. auto.
      * rewrite gone_in. split; [auto|]. cbn in W. congruence.
      * rewrite gone_in. split; [auto|]. cbn in W. congruence.
    + rewrite !in_snoc. split; (intros [H|H]; [auto|subst e; cbn in W; congruence]).
  - destruct P as (P1 & P2 & P3). specialize (W w eq_refl). split; [apply entered_snoc, P1|].
    split; [apply not_done_snoc; auto|]. apply cause_snoc; [|exact P3]. intros ->. cbn in W. congruence.
  - destruct P as (P1 & P2 & P3). specialize (W w eq_refl). split; [apply entered_snoc, P1|].
    split; [apply not_done_snoc; auto|]. apply cause_snoc; [|exact P3]. intros ->. cbn in W. congruence.
  - destruct P as (l1 & l2 & E & I & S & N & K). specialize (Q pos c n eq_refl).
    exists l1, (l2 ++ [e]). split; [rewrite E, <- app_assoc; reflexivity|].
    split; [apply Forall_app; split; [exact I|]; constructor; [apply quiet_inside, Q|constructor]|].
    rewrite quiet_queue, quiet_signals by exact Q. auto.
Qed.

Section Step.
  Variable m : nat -> Z.

  (** Agent [a] moves from [g] to [g'] and appends [es] (at most one event). *)
  Lemma advance : forall s a g g' lk' ls' lv' fr' cr' cs' es,
    good m s -> nth_error (agents s) a = Some g ->
    (es = [] \/ exists e, es = [e] /\ next_ok m (log s) e /\
       (quiet_ev e \/ lock s = Some a) /\
       (forall w, about e = Some w -> (exists p, entered a w p (log s)) \/ w = fresh s)) ->
    (forall b, b <> a -> (lk' = Some b <-> lock s = Some b)) ->
    agent_ok (log s ++ es) lk' a g' ->
    (forall p, qv ls' p = queue (log s ++ es) p) ->
    (forall p, cs' p = value m (log s ++ es) p) ->
    (forall e w, In e (log s ++ es) -> about e = Some w -> w < fr') ->
    (forall w, In w lv' <-> (exists a p, entered a w p (log s ++ es)) /\ ~ done w (log s ++ es)) ->
    cr' = false ->
    good m (mkSt cs' lk' ls' lv' fr' (set_nth (agents s) a g') (log s ++ es) cr').
  Proof.
    intros s a g g' lk' ls' lv' fr' cr' cs' es G N E K O Q C F V X. pose proof (nth_lt _ _ _ _ N) as La.
    constructor; cbn [log lists cells agents lock fresh live crashed]; auto.
    - destruct E as [->|(e & -> & E & _)]; [rewrite app_nil_r; apply G|]. constructor; [apply G|exact E].
    - intros b gb Nb. destruct (Nat.eq_dec b a) as [->|D].
      + rewrite set_nth_same in Nb by exact La. injection Nb as <-. exact O.
      + rewrite set_nth_other in Nb by assumption. destruct (g_agents m s G b gb Nb) as (B1 & B2 & B3).
        split; [rewrite B1; symmetry; apply K, D|]. split; [|exact B3].
        destruct E as [->|(e & -> & E & E1 & E2)]; [rewrite app_nil_r; exact B2|].
        apply pc_snoc; [exact B2| |].
        * intros w W A. destruct (E2 w A) as [(p & Ea)| ->].
          -- assert (exists p', entered b w p' (log s)) as [p' Eb].
             { destruct (at_ gb); cbn in W, B2; try discriminate; injection W as ->; destruct B2 as [B2 _]; eauto. }
             destruct (enter_unique m (log s) (g_log m s G) _ _ _ _ _ Ea Eb). congruence.
          -- assert (exists p', entered b (fresh s) p' (log s)) as [p' (v & x & Eb)].
             { destruct (at_ gb); cbn in W, B2; try discriminate; injection W as ->; destruct B2 as [B2 _]; eauto. }
             pose proof (g_fresh m s G _ (fresh s) Eb eq_refl). lia.
        * intros pos c n P. destruct E1 as [E1|E1]; [exact E1|].
          rewrite P in B1. cbn in B1. assert (lock s = Some b) by (apply B1; reflexivity). congruence.
    - intros b Lb. rewrite set_nth_length by exact La. destruct (Nat.eq_dec b a) as [->|D]; [exact La|].
      apply (g_lock m s G), K; assumption.
  Qed.

  (** Parts of the state that an event without waiter leaves alone. *)
  Lemma same_live : forall s es, good m s -> (es = [] \/ exists e, es = [e] /\ (forall a w p v x, e <> EEnter a w p v x) /\ (forall a w r, e <> EDone a w r)) ->
    forall w, In w (live s) <-> (exists a p, entered a w p (log s ++ es)) /\ ~ done w (log s ++ es).
  Proof.
    intros s es G E w. rewrite (g_live m s G). destruct E as [->|(e & -> & E1 & E2)]; [rewrite app_nil_r; tauto|].
    split; intros [(a & p & A) B].
    - split; [exists a, p; apply entered_snoc, A|]. apply not_done_snoc; auto.
    - split.
      + destruct A as (v & x & A). apply in_snoc in A. destruct A as [A|A]; [exists a, p, v, x; exact A|]. exfalso. eapply E1. symmetry. exact A.
      + intros (b & r & D). apply B. exists b, r. apply in_snoc. auto.
  Qed.
  Lemma same_fresh : forall s es, good m s -> (es = [] \/ exists e, es = [e] /\ (forall w, about e = Some w -> exists f, In f (log s) /\ about f = Some w)) ->
    forall e w, In e (log s ++ es) -> about e = Some w -> w < fresh s.
  Proof.
    intros s es G E e w I A. destruct E as [->|(e' & -> & E)].
    - rewrite app_nil_r in I. eapply g_fresh; eauto.
    - apply in_snoc in I. destruct I as [I| ->]; [eapply g_fresh; eauto|].
      destruct (E w A) as (f & If & Af). eapply g_fresh; eauto.
  Qed.
  Lemma intact_ok : forall s pos, good m s -> intact s pos = true.
  Proof.
    intros s pos G. unfold intact. apply forallb_forall. intros w I. apply mem_nat_in.
    rewrite (g_q m s G) in I. apply (g_live m s G).
    destruct (queue_facts m (log s) (g_log m s G)) as [_ IQ]. destruct (IQ w pos I) as ((b & E) & _ & D).
    split; [exists b, pos; exact E|exact D].
  Qed.

  Lemma signal_nth : forall w gs b, nth_error (signal w gs) b = option_map (fun x => match at_ x with
                  | PBlocked w' p _ => if w' =? w then mkAgent (todo x) (PWoken w p false) else x
                  | _ => x
                  end) (nth_error gs b).
  Proof. intros. unfold signal. apply nth_error_map. Qed.
  Lemma signal_length : forall w gs, length (signal w gs) = length gs.
  Proof. intros. apply map_length. Qed.

  Lemma step_good : forall s x, good m s -> good m (step s x).
  Proof.
    intros s [a ch] G. unfold step. cbn [fst snd]. destruct (nth_error (agents s) a) as [g|] eqn:N; [|exact G].
    pose proof (g_agents m s G a g N) as (O1 & O2 & O3). pose proof (nth_lt _ _ _ _ N) as La.
    assert (Nil : forall p, qv (lists s) p = queue (log s ++ []) p) by (intro; rewrite app_nil_r; apply G).
    assert (NilC : forall p, cells s p = value m (log s ++ []) p) by (intro; rewrite app_nil_r; apply G).
    (* a step without event *)
    assert (Plain : forall g' lk', (forall b, b <> a -> (lk' = Some b <-> lock s = Some b)) -> agent_ok (log s) lk' a g' ->
      good m (mkSt (cells s) lk' (lists s) (live s) (fresh s) (set_nth (agents s) a g') (log s ++ []) (crashed s))).
    { intros g' lk' K A. apply (advance s a g); auto.
      - rewrite app_nil_r. exact A.
      - apply same_fresh; auto.
      - apply same_live; auto.
      - apply G. }
    unfold agent_step. destruct (at_ g) as [|o|o|w p tm|w p e|w p e|pos c n|] eqn:P; cbn [holding pc_ok] in O1, O2.
    - destruct (todo g) as [|o rest]; [exact G|].
      rewrite <- (app_nil_r (log s)). apply Plain; [tauto|]. split; [exact O1|]. split; [exact I|discriminate].
    - destruct o as [pos v tm|pos c|pos v].
      + destruct (lock s) as [b|] eqn:Lk; [exact G|]. apply Plain; [intros b D; split; congruence|].
        split; [cbn; tauto|]. split; [exact I|discriminate].
      + destruct (lock s) as [b|] eqn:Lk; [exact G|]. apply Plain; [intros b D; split; congruence|].
        split; [cbn; tauto|]. split; [exact I|discriminate].
      + apply (advance s a g); auto.
        * right. exists (EPoke pos v). cbn. repeat split; auto. discriminate.
        * tauto.
        * split; [exact O1|]. split; [exact I|discriminate].
        * intro q. rewrite queue_snoc. apply G.
        * intro q. rewrite value_snoc, Nat.eqb_sym, (g_cells m s G). destruct (q =? pos); reflexivity.
        * apply same_fresh; auto. right. exists (EPoke pos v). split; [reflexivity|discriminate].
        * apply same_live; auto. right. exists (EPoke pos v). repeat split; discriminate.
        * apply G.
    - assert (Lk : lock s = Some a) by (apply O1; reflexivity). destruct o as [pos v tm|pos c|pos v].
      + (* wait *)
        destruct (Z.eqb_spec (cells s pos) v) as [Ev|Ev].
        * unfold with_lists, move. cbn [cells lock agents log].
          assert (Fr : forall f, In f (log s) -> about f <> Some (fresh s)).
          { intros f If Af. pose proof (g_fresh m s G _ _ If Af). lia. }
          apply (advance s a g); auto.
          -- right. eexists. split; [reflexivity|]. cbn. repeat split; auto.
             ++ apply G.
             ++ intros w W. injection W as <-. auto.
          -- intros b D. rewrite Lk. split; congruence.
          -- split; [cbn; split; discriminate|]. split; [|discriminate]. cbn. repeat split.
             ++ exists v, (cells s pos). apply in_snoc. auto.
             ++ rewrite queue_snoc. cbn. rewrite Nat.eqb_refl. apply in_snoc. auto.
             ++ rewrite in_snoc. intros [H|H]; [|discriminate]. eapply Fr; [exact H|reflexivity].
             ++ rewrite in_snoc. intros [H|H]; [|discriminate]. eapply Fr; [exact H|reflexivity].
          -- intro q. rewrite upd_qv by apply get_found. rewrite !get_qv, queue_snoc. cbn.
             rewrite (Nat.eqb_sym pos q), !(g_q m s G). destruct (Nat.eqb_spec q pos) as [->|D]; reflexivity.
          -- intro q. rewrite value_snoc. apply G.
          -- intros f w If Af. apply in_snoc in If. destruct If as [If| ->].
             ++ pose proof (g_fresh m s G _ _ If Af). lia.
             ++ cbn in Af. injection Af as <-. lia.
          -- intro w. cbn [In]. rewrite (g_live m s G). split.
             ++ intros [<-|[(b & q & E) D]].
                ** split; [exists a, pos, v, (cells s pos); apply in_snoc; auto|].
                   intros (b & r & D). apply in_snoc in D. destruct D as [D|D]; [|discriminate]. eapply Fr; [exact D|reflexivity].
                ** split; [exists b, q; apply entered_snoc, E|]. apply not_done_snoc; [right; discriminate|exact D].
             ++ intros [(b & q & v' & x' & E) D]. apply in_snoc in E. destruct E as [E|E].
                ** right. split; [exists b, q, v', x'; exact E|]. intros (c & r & D'). apply D. exists c, r. apply in_snoc. auto.
                ** left. congruence.
          -- rewrite (g_crash m s G), (intact_ok s pos G). reflexivity.
        * unfold move. apply (advance s a g); auto.
          -- right. eexists. split; [reflexivity|]. cbn. repeat split; auto; try discriminate; try apply G.
          -- tauto.
          -- split; [cbn; tauto|]. split; [exact I|discriminate].
          -- intro q. rewrite queue_snoc. apply G.
          -- intro q. rewrite value_snoc. apply G.
          -- apply same_fresh; auto. right. eexists. split; [reflexivity|discriminate].
          -- apply same_live; auto. right. eexists. split; [reflexivity|]. split; discriminate.
          -- apply G.
      + (* notify starts *)
        unfold with_lists, move. cbn [cells lock agents log]. apply (advance s a g); auto.
        * right. eexists. split; [reflexivity|]. cbn. repeat split; auto. discriminate.
        * tauto.
        * split; [cbn; tauto|]. split; [|discriminate]. cbn. exists (log s), []. repeat split; auto.
          -- rewrite queue_snoc. reflexivity.
          -- intros; lia.
        * intro q. rewrite queue_snoc, get_qv. apply G.
        * intro q. rewrite value_snoc. apply G.
        * apply same_fresh; auto. right. eexists. split; [reflexivity|discriminate].
        * apply same_live; auto. right. eexists. split; [reflexivity|]. split; discriminate.
        * apply G.
      + exfalso. eapply O3. reflexivity.
    - (* blocked *)
      destruct O2 as (B1 & B2 & B3 & B4).
      destruct (queue_facts m (log s) (g_log m s G)) as [_ IQ]. destruct (IQ w p B2) as (_ & S & D).
      destruct ch; [exact G| |].
      + destruct tm; [|exact G]. unfold move. apply (advance s a g); auto.
        * right. eexists. split; [reflexivity|]. cbn. repeat split; eauto.
          intros w' W. injection W as <-. eauto.
        * tauto.
        * split; [cbn; split; [discriminate|intro X; apply O1 in X; discriminate]|]. split; [|discriminate]. cbn.
          split; [apply entered_snoc, B1|]. split; [apply not_done_snoc; [right; discriminate|exact D]|]. apply in_snoc. auto.
        * intro q. rewrite queue_snoc. apply G.
        * intro q. rewrite value_snoc. apply G.
        * apply same_fresh; auto. right. eexists. split; [reflexivity|]. intros w' W. injection W as <-.
          destruct B1 as (v & x & B1). eexists. split; [exact B1|reflexivity].
        * apply same_live; auto. right. eexists. split; [reflexivity|]. split; discriminate.
        * apply G.
      + unfold move. apply (advance s a g); auto.
        * right. eexists. split; [reflexivity|]. cbn. repeat split; eauto.
          intros w' W. injection W as <-. eauto.
        * tauto.
        * split; [cbn; split; [discriminate|intro X; apply O1 in X; discriminate]|]. split; [|discriminate]. cbn.
          split; [apply entered_snoc, B1|]. split; [apply not_done_snoc; [right; discriminate|exact D]|].
          rewrite !in_snoc. split; [intros [H|H]; [auto|discriminate]|auto].
        * intro q. rewrite queue_snoc. apply G.
        * intro q. rewrite value_snoc. apply G.
        * apply same_fresh; auto. right. eexists. split; [reflexivity|]. intros w' W. injection W as <-.
          destruct B1 as (v & x & B1). eexists. split; [exact B1|reflexivity].
        * apply same_live; auto. right. eexists. split; [reflexivity|]. split; discriminate.
        * apply G.
    - destruct (lock s) as [b|] eqn:Lk; [exact G|]. apply Plain; [intros b D; split; congruence|].
      split; [cbn; tauto|]. split; [exact O2|discriminate].
    - (* wait ends *)
      destruct O2 as (B1 & B2 & B3). assert (Lk : lock s = Some a) by (apply O1; reflexivity).
      unfold with_lists, move. cbn [cells lock agents log]. apply (advance s a g); auto.
      + right. eexists. split; [reflexivity|]. cbn. repeat split; eauto.
        * destruct e; [left|right]; auto.
        * intros w' W. injection W as <-. eauto.
      + tauto.
      + split; [cbn; tauto|]. split; [exact I|discriminate].
      + intro q. rewrite queue_snoc, unlink_qv, (g_q m s G). reflexivity.
      + intro q. rewrite value_snoc. apply G.
      + apply same_fresh; auto. right. eexists. split; [reflexivity|]. intros w' W. injection W as <-.
        destruct B1 as (v & x & B1). eexists. split; [exact B1|reflexivity].
      + intro w'. rewrite filter_In, negb_true_iff, Nat.eqb_neq, (g_live m s G). split.
        * intros [[(b & q & E) D] X]. split; [exists b, q; apply entered_snoc, E|].
          apply not_done_snoc; [left; cbn; congruence|exact D].
        * intros [(b & q & v & x & E) D]. apply in_snoc in E. destruct E as [E|E]; [|discriminate].
          split; [split; [exists b, q, v, x; exact E|]|].
          -- intros (b' & r & D'). apply D. exists b', r. apply in_snoc. auto.
          -- intros ->. apply D. eexists _, _. apply in_snoc. right. reflexivity.
      + rewrite (g_crash m s G), (intact_ok s p G). assert (M : mem_nat w (live s) = true).
        { apply mem_nat_in, (g_live m s G). split; [exists a, p; exact B1|exact B2]. }
        rewrite M. reflexivity.
    - (* the loop of notify *)
      assert (Lk : lock s = Some a) by (apply O1; reflexivity).
      destruct O2 as (l1 & l2 & E & Fi & Q & Nn & Kn).
      assert (Stop : signals l2 = take c (queue l1 pos) ->
        good m (move s a g (lock s) PUnlock [ECount a n])).
      { intro T. unfold move. apply (advance s a g); auto.
        - right. eexists. split; [reflexivity|]. cbn. repeat split; auto; [|discriminate].
          exists l1, pos, c, l2. auto.
        - tauto.
        - split; [cbn; tauto|]. split; [exact I|discriminate].
        - intro q. rewrite queue_snoc. apply G.
        - intro q. rewrite value_snoc. apply G.
        - apply same_fresh; auto. right. eexists. split; [reflexivity|discriminate].
        - apply same_live; auto. right. eexists. split; [reflexivity|]. split; discriminate.
        - apply G. }
      destruct (match c with None => true | Some c => n <? c end) eqn:More.
      + destruct (find_list (lists s) pos) as [[|w ws]|] eqn:Fl.
        * apply Stop. pose proof (g_q m s G pos) as Qp. unfold qv in Qp. rewrite Fl in Qp. rewrite <- Qp, app_nil_r in Q.
          rewrite Q. destruct c as [k|]; [|reflexivity]. cbn. rewrite firstn_all2; [reflexivity|].
          specialize (Kn k eq_refl). lia.
        * (* one waiter is taken *)
          pose proof (g_q m s G pos) as Qp. unfold qv in Qp. rewrite Fl in Qp.
          destruct (queue_facts m (log s) (g_log m s G)) as [IN IQ].
          assert (Iw : In w (queue (log s) pos)) by (rewrite <- Qp; left; reflexivity).
          destruct (IQ w pos Iw) as ((b0 & Ew) & Sw & Dw).
          assert (Gone : forall q, q <> pos -> gone w (queue (log s) q) = queue (log s) q).
          { intros q Dq. apply gone_not_in. intro Iq. destruct (IQ w q Iq) as ((b1 & Ew1) & _).
            destruct (enter_unique m _ (g_log m s G) _ _ _ _ _ Ew Ew1). congruence. }
          assert (Hd : gone w (queue (log s) pos) = ws).
          { rewrite <- Qp. apply gone_head. rewrite Qp. apply IN. }
          unfold move. cbn [cells lock agents log].
          constructor; cbn [log lists cells agents lock fresh live crashed].
          -- constructor; [apply G|]. cbn. exists pos, ws. auto.
          -- intro q. rewrite upd_qv by congruence. rewrite queue_snoc. cbn [arrive].
             destruct (Nat.eqb_spec q pos) as [->|Dq]; [rewrite Hd; reflexivity|].
             rewrite Gone by exact Dq. apply G.
          -- intro q. rewrite value_snoc. apply G.
          -- intros b gb Nb. rewrite signal_nth in Nb. destruct (Nat.eq_dec b a) as [->|Db].
             ++ rewrite set_nth_same in Nb by exact La. cbn in Nb. injection Nb as <-.
                split; [cbn; tauto|]. split; [|discriminate]. cbn.
                exists l1, (l2 ++ [ESignal a w]). split; [rewrite E, <- app_assoc; reflexivity|].
                split; [apply Forall_app; split; [exact Fi|]; constructor; [reflexivity|constructor]|].
                rewrite queue_snoc. cbn [arrive]. rewrite Hd. rewrite signals_app. cbn [signals].
                split; [rewrite Q, <- Qp, <- app_assoc; reflexivity|].
                split; [rewrite app_length; cbn; lia|]. intros k ->. apply Nat.ltb_lt in More. lia.
             ++ rewrite set_nth_other in Nb by assumption.
                destruct (nth_error (agents s) b) as [gb0|] eqn:Nb0; [|discriminate]. cbn in Nb. injection Nb as <-.
                destruct (g_agents m s G b gb0 Nb0) as (C1 & C2 & C3).
                assert (NH : holding (at_ gb0) = false).
                { destruct (holding (at_ gb0)); [|reflexivity]. assert (lock s = Some b) by (apply C1; reflexivity). congruence. }
                destruct (at_ gb0) as [|o|o|w' p' tm|w' p' e'|w' p' e'|pos' c' n'|] eqn:Pb; try discriminate.
                ** unfold agent_ok. rewrite Pb. split; [exact C1|]. split; [exact I|discriminate].
                ** unfold agent_ok. rewrite Pb. split; [exact C1|]. split; [exact I|exact C3].
                ** destruct C2 as (D1 & D2 & D3 & D4). destruct (Nat.eqb_spec w' w) as [->|Dw'].
                   --- split; [exact C1|]. split; [|discriminate]. cbn. split; [apply entered_snoc, D1|].
                       split; [apply not_done_snoc; [right; discriminate|]; apply (IQ w p' D2)|].
                       split; [rewrite in_snoc; intros [H|H]; [auto|discriminate]|].
                       right. rewrite signals_app. apply in_or_app. right. left. reflexivity.
                   --- unfold agent_ok. rewrite Pb. split; [exact C1|]. split; [|discriminate].
                       apply pc_snoc; [exact (conj D1 (conj D2 (conj D3 D4)))| |discriminate].
                       cbn. intros w0 W. injection W as <-. congruence.
                ** unfold agent_ok. rewrite Pb. split; [exact C1|]. split; [|discriminate].
                   destruct C2 as (D1 & D2 & D3). cbn. split; [apply entered_snoc, D1|].
                   split; [apply not_done_snoc; [right; discriminate|exact D2]|]. apply cause_snoc; [discriminate|exact D3].
          -- intros b Lb. rewrite signal_length, set_nth_length by exact La. apply (g_lock m s G), Lb.
          -- apply same_fresh; auto. right. eexists. split; [reflexivity|]. intros w' W. injection W as <-.
             destruct Ew as (v & x & Ew). eexists. split; [exact Ew|reflexivity].
          -- apply same_live; auto. right. eexists. split; [reflexivity|]. split; discriminate.
          -- rewrite (g_crash m s G), (intact_ok s pos G). reflexivity.
        * apply Stop. pose proof (g_q m s G pos) as Qp. unfold qv in Qp. rewrite Fl in Qp. rewrite <- Qp, app_nil_r in Q.
          rewrite Q. destruct c as [k|]; [|reflexivity]. cbn. rewrite firstn_all2; [reflexivity|].
          specialize (Kn k eq_refl). lia.
      + apply Stop. destruct c as [k|]; [|discriminate]. apply Nat.ltb_ge in More. specialize (Kn k eq_refl).
        rewrite Q. cbn. rewrite firstn_app. replace (k - length (signals l2)) with 0 by lia.
        rewrite firstn_O, app_nil_r, firstn_all2 by lia. reflexivity.
    - (* unlock *)
      assert (Lk : lock s = Some a) by (apply O1; reflexivity). unfold move.
      apply Plain; [intros b D; rewrite Lk; split; congruence|].
      split; [cbn; split; discriminate|]. split; [exact I|discriminate].
  Qed.

  Lemma start_good : forall progs, good m (start m progs).
  Proof.
    intro progs. constructor; cbn; auto; try tauto; try discriminate.
    - constructor.
    - intros a g N. apply nth_error_In, in_map_iff in N. destruct N as (p & <- & _).
      split; [cbn; split; discriminate|]. split; [exact I|discriminate].
    - intro w. split; [tauto|]. intros [(a & p & v & x & []) _].
  Qed.

  Lemma run_good : forall progs sched, good m (run sched (start m progs)).
  Proof.
    intros progs sched. generalize (start_good progs). generalize (start m progs).
    induction sched as [|x sched IH]; intros s G; [exact G|]. apply (IH (step s x)), step_good, G.
  Qed.
End Step.

(** ** The deadline *)
From Verif Require Import StrModel NumModel NumSpec NumProofs.
Local Open Scope Z_scope.

Lemma deadline_spec : forall sec nsec ms, 0 <= nsec < 1000000000 -> 0 <= ms ->
  0 <= snd (deadline sec nsec ms) < 1000000000 /\
  fst (deadline sec nsec ms) * 1000000000 + snd (deadline sec nsec ms) = sec * 1000000000 + nsec + ms * 1000000.
Proof.
  intros sec nsec ms N M. unfold deadline. pose proof (Z.mod_pos_bound ms 1000). pose proof (Z.div_mod ms 1000).
  destruct (1000000000 <=? nsec + ms mod 1000 * 1000000) eqn:E; cbn [fst snd].
  - apply Z.leb_le in E. lia.
  - apply Z.leb_gt in E. lia.
Qed.

Lemma wait_deadline_finite : forall t s m e sec nsec, double t s m e -> 0 <= nsec < 1000000000 ->
  with_sign s (whole m e) < 2 ^ 64 ->
  exists sec' nsec', wait_deadline t sec nsec = SOk (Some (sec', nsec')) /\ 0 <= nsec' < 1000000000 /\
    sec' * 1000000000 + nsec' = sec * 1000000000 + nsec + Z.max 0 (with_sign s (whole m e)) * 1000000.
Proof.
  intros t s m e sec nsec D N L. destruct (double_fields t s m e D) as (_ & A & B & _).
  pose proof (dtrunc_double t s m e D) as T. unfold wait_deadline. rewrite A, B. cbn [orb andb].
  set (ms := if 0 <? dval t then dtrunc t else 0).
  assert (M : ms = Z.max 0 (with_sign s (whole m e))).
  { unfold ms. rewrite <- T. unfold dtrunc. pose proof unit_pos as U. destruct (0 <? dval t) eqn:E.
    - apply Z.ltb_lt in E. pose proof (Z.quot_pos (dval t) unit). lia.
    - apply Z.ltb_ge in E. assert (Q : Z.quot (dval t) unit <= 0); [|lia].
      pose proof (Z.quot_pos (- dval t) unit) as Q. rewrite Z.quot_opp_l in Q by lia. lia. }
  assert (R : 0 <= ms < 2 ^ 64) by lia. destruct (deadline_spec sec nsec ms N (proj1 R)) as [D1 D2].
  assert (Lt : (ms <? 2 ^ 64) = true) by (apply Z.ltb_lt; lia). rewrite Lt.
  destruct (deadline sec nsec ms) as [x y]. exists x, y. cbn [fst snd] in *. rewrite <- M. auto.
Qed.
