(** Linearizability of the Atomics operations of AtomModel.v. *)
From Coq Require Import ZArith List Bool Lia Arith.
Import ListNotations.
From Verif Require Import BufModel BufSpec BufProofs AtomModel AtomSpec AtomProofs.
Local Open Scope Z_scope.

(** ** Lists *)
Lemma set_nth_same : forall A (l : list A) i x, (i < length l)%nat -> nth_error (set_nth l i x) i = Some x.
Proof.
  intros A l i x L. unfold set_nth. rewrite nth_error_app2; rewrite firstn_length, Nat.min_l by lia; [|lia].
  rewrite Nat.sub_diag. reflexivity.
Qed.
Lemma set_nth_cons : forall A (y : A) l i x, set_nth (y :: l) (S i) x = y :: set_nth l i x.
Proof. reflexivity. Qed.
Lemma set_nth_other : forall A (l : list A) i j x, (i < length l)%nat -> j <> i ->
  nth_error (set_nth l i x) j = nth_error l j.
Proof.
  induction l as [|y l IH]; intros i j x L N; [cbn in L; lia|].
  destruct i as [|i]; destruct j as [|j]; try lia; try reflexivity.
  rewrite set_nth_cons. cbn. apply IH; [cbn in L|]; lia.
Qed.
Lemma set_nth_length : forall A (l : list A) i x, (i < length l)%nat -> length (set_nth l i x) = length l.
Proof.
  intros A l i x L. unfold set_nth. rewrite app_length, firstn_length. cbn [length]. rewrite skipn_length. lia.
Qed.
Lemma nth_lt : forall A (l : list A) i x, nth_error l i = Some x -> (i < length l)%nat.
Proof. intros A l i x E. apply nth_error_Some. congruence. Qed.

Lemma before_snoc : forall A (l : list A) e x y, before (l ++ [e]) x y -> before l x y \/ (y = e /\ In x l).
Proof.
  intros A l e x y (l1 & l2 & l3 & E). destruct l3 as [|z l3 _] using rev_ind.
  - right. change (l1 ++ x :: l2 ++ [y]) with (l1 ++ (x :: l2) ++ [y]) in E.
    rewrite app_assoc in E. apply app_inj_tail in E. destruct E as [-> ->].
    split; [reflexivity|]. apply in_or_app. right. left. reflexivity.
  - left. exists l1, l2, l3.
    assert (Q : l ++ [e] = (l1 ++ x :: l2 ++ y :: l3) ++ [z]).
    { rewrite E. rewrite <- app_assoc. cbn. rewrite <- app_assoc. reflexivity. }
    apply app_inj_tail in Q. apply Q.
Qed.
Lemma before_app : forall A (l r : list A) x y, before l x y -> before (l ++ r) x y.
Proof.
  intros A l r x y (l1 & l2 & l3 & ->). exists l1, l2, (l3 ++ r).
  rewrite <- app_assoc. cbn. rewrite <- app_assoc. reflexivity.
Qed.
Lemma before_last : forall A (l : list A) x y, In x l -> before (l ++ [y]) x y.
Proof.
  intros A l x y I. apply in_split in I. destruct I as (l1 & l2 & ->).
  exists l1, l2, []. rewrite <- app_assoc. reflexivity.
Qed.
Lemma nodup_snoc : forall A (l : list A) x, NoDup l -> ~ In x l -> NoDup (l ++ [x]).
Proof.
  intros A l x N I. pose proof (Add_app x l []) as H. rewrite app_nil_r in H.
  apply (NoDup_Add H). split; assumption.
Qed.

Section Lin.
  Variables (t : etype) (le : bool) (x0 : Z).
  Hypothesis x0_range : in_range t x0.

  Lemma legal_snoc : forall l x c, legal t x (l ++ [c]) <-> legal t x l /\ cres c = fst (seq_op t (cop c) (final t x l)).
  Proof.
    induction l as [|d l IH]; intros x c; cbn [app legal final]; [tauto|]. rewrite IH. tauto.
  Qed.
  Lemma final_snoc : forall l x c, final t x (l ++ [c]) = snd (seq_op t (cop c) (final t x l)).
  Proof. induction l as [|d l IH]; intros x c; cbn [app final]; [reflexivity|]. apply IH. Qed.
  Lemma final_range : forall l x, in_range t x -> in_range t (final t x l).
  Proof. induction l as [|d l IH]; intros x R; cbn [final]; [exact R|]. apply IH, seq_range, R. Qed.

  Lemma explains_inv : forall h l j o, explains t x0 h l -> ~ In j (map cid l) -> explains t x0 (h ++ [EInv j o]) l.
  Proof.
    intros h l j o (N & L & R & I & B) F. repeat split; auto.
    - intros i r H. apply in_app_or in H. destruct H as [H|[H|[]]]; [eauto|discriminate].
    - intros c H. apply in_or_app. left. auto.
    - intros i r k o' H K. apply before_snoc in H. destruct H as [H|[H _]]; [eauto|].
      injection H as -> ->. contradiction.
  Qed.
  Lemma explains_ret : forall h l i o r, explains t x0 h l -> In (mkCall i o r) l -> explains t x0 (h ++ [ERet i r]) l.
  Proof.
    intros h l i o r (N & L & R & I & B) F. repeat split; auto.
    - intros i' r' H. apply in_app_or in H. destruct H as [H|[H|[]]]; [eauto|]. injection H as -> ->. eauto.
    - intros c H. apply in_or_app. left. auto.
    - intros i' r' k o' H K. apply before_snoc in H. destruct H as [H|[H _]]; [eauto|discriminate].
  Qed.
  Lemma explains_lin : forall h l i o r, explains t x0 h l -> ~ In i (map cid l) -> In (EInv i o) h ->
    r = fst (seq_op t o (final t x0 l)) -> explains t x0 h (l ++ [mkCall i o r]).
  Proof.
    intros h l i o r (N & L & R & I & B) F H E. unfold explains. rewrite map_app. cbn [map cid]. repeat split.
    - apply nodup_snoc; assumption.
    - apply legal_snoc. split; assumption.
    - intros i' r' H'. destruct (R i' r' H') as [o' P]. exists o'. apply in_or_app. left. exact P.
    - intros c H'. apply in_app_or in H'. destruct H' as [H'|[<-|[]]]; auto.
    - intros i' r' j o' H' K. apply in_app_or in K. destruct K as [K|[<-|[]]].
      + apply before_app. eauto.
      + apply before_last. destruct H' as (h1 & h2 & h3 & Q).
        destruct (R i' r') as [o'' P]; [rewrite Q; apply in_or_app; right; left; reflexivity|].
        apply in_map_iff. exists (mkCall i' o'' r'). auto.
  Qed.

  (** The operations that occur: all of one kind, or any on one byte elements. *)
  Variable kind : option bool.
  Hypothesis kind_size : kind = None -> esize t = 1%nat.
  Definition cls (o : op) : Prop := match kind with Some b => locked_op o = b | None => True end.

  Definition A (x : Z) : list Z := enc t le x.

  Definition agent_ok (h : list event) (lk : option nat) (l : list call) (a : nat) (g : agent) : Prop :=
    (forall o, In o (todo g) -> cls o) /\
    (forall k, In (a, k) (map cid l) -> (k <= made g)%nat) /\
    (forall k o, In (EInv (a, k) o) h -> (k <= made g)%nat) /\
    match at_ g with
    | PIdle => ~ In (a, made g) (map cid l) /\ (forall o, ~ In (EInv (a, made g) o) h) /\ lk <> Some a
    | PStart o => ~ In (a, made g) (map cid l) /\ In (EInv (a, made g) o) h /\ cls o /\ lk <> Some a
    | PRead acc => ~ In (a, made g) (map cid l) /\ In (EInv (a, made g) OLoad) h /\ cls OLoad /\ lk = Some a /\
                   (length acc < esize t)%nat /\ acc = firstn (length acc) (A (final t x0 l))
    | PWrite v i => ~ In (a, made g) (map cid l) /\ In (EInv (a, made g) (OStore v)) h /\ cls (OStore v) /\ lk = Some a /\
                    (i < esize t)%nat
    | PUnlock r => (exists o, In (mkCall (a, made g) o r) l) /\ lk = Some a
    | PRet r => (exists o, In (mkCall (a, made g) o r) l) /\ lk <> Some a
    end.

  Definition writer (s : st) : option (Z * nat) :=
    match lock s with
    | Some a => match nth_error (agents s) a with
                | Some (mkAgent _ _ (PWrite v i)) => Some (v, i)
                | _ => None
                end
    | None => None
    end.
  Definition mem_ok (s : st) (l : list call) : Prop :=
    mem s = match writer s with
            | Some (v, i) => firstn i (A v) ++ skipn i (A (final t x0 l))
            | None => A (final t x0 l)
            end.
  Definition good (s : st) (l : list call) : Prop :=
    explains t x0 (hist s) l /\
    (forall a g, nth_error (agents s) a = Some g -> agent_ok (hist s) (lock s) l a g) /\
    (forall a, lock s = Some a -> (a < length (agents s))%nat) /\
    mem_ok s l.

  (** Agents other than the one that moves. *)
  Lemma other_ok : forall h lk l b g h' lk' l',
    agent_ok h lk l b g ->
    (forall k, In (b, k) (map cid l') <-> In (b, k) (map cid l)) ->
    (forall k o, In (EInv (b, k) o) h' <-> In (EInv (b, k) o) h) ->
    (lk' = Some b <-> lk = Some b) ->
    (forall c, In c l -> In c l') ->
    (forall acc, at_ g = PRead acc -> cls OLoad -> lk = Some b -> (length acc < esize t)%nat ->
                 firstn (length acc) (A (final t x0 l')) = firstn (length acc) (A (final t x0 l))) ->
    agent_ok h' lk' l' b g.
  Proof.
    intros h lk l b g h' lk' l' (C & L & H & P) L' H' K' M' R'.
    split; [exact C|]. split; [intros k Q; apply L, L', Q|]. split; [intros k o Q; eapply H, H', Q|].
    destruct (at_ g) as [|o|acc|v i|r|r].
    - destruct P as (P1 & P2 & P3). split; [rewrite L'; exact P1|]. split; [intro o; rewrite H'; apply P2|].
      rewrite K'. exact P3.
    - destruct P as (P1 & P2 & P3 & P4). rewrite L', H', K'. tauto.
    - destruct P as (P1 & P2 & P3 & P4 & P5 & P6). rewrite L', H', K'. rewrite (R' acc eq_refl P3 P4 P5). tauto.
    - destruct P as (P1 & P2 & P3 & P4 & P5). rewrite L', H', K'. tauto.
    - destruct P as ((o & P1) & P2). rewrite K'. split; [exists o; auto|exact P2].
    - destruct P as ((o & P1) & P2). rewrite K'. split; [exists o; auto|exact P2].
  Qed.

  Lemma in_snoc_other : forall l c a b k, cid c = (a, k) -> b <> a ->
    forall k', In (b, k') (map cid (l ++ [c])) <-> In (b, k') (map cid l).
  Proof.
    intros l c a b k E N k'. rewrite map_app, in_app_iff. cbn [map In]. rewrite E.
    split; [intros [H|[H|[]]]; [exact H|congruence]|auto].
  Qed.

  Lemma advance : forall s l a g h' lk' m' g' l',
    good s l -> nth_error (agents s) a = Some g ->
    explains t x0 h' l' ->
    agent_ok h' lk' l' a g' ->
    (forall b, b <> a -> forall k, In (b, k) (map cid l') <-> In (b, k) (map cid l)) ->
    (forall b, b <> a -> forall k o, In (EInv (b, k) o) h' <-> In (EInv (b, k) o) (hist s)) ->
    (forall b, b <> a -> (lk' = Some b <-> lock s = Some b)) ->
    (forall c, In c l -> In c l') ->
    (forall b (acc : list Z), b <> a -> cls OLoad -> lock s = Some b -> (length acc < esize t)%nat ->
       firstn (length acc) (A (final t x0 l')) = firstn (length acc) (A (final t x0 l))) ->
    mem_ok (mkSt m' lk' (set_nth (agents s) a g') h') l' ->
    good (mkSt m' lk' (set_nth (agents s) a g') h') l'.
  Proof.
    intros s l a g h' lk' m' g' l' (E & G & K & M) N E' O L' H' K' I' R' M'.
    pose proof (nth_lt _ _ _ _ N) as La.
    split; [exact E'|]. split; [|split; [|exact M']]; cbn [hist lock agents].
    - intros b gb Nb. destruct (Nat.eq_dec b a) as [->|D].
      + rewrite set_nth_same in Nb by exact La. injection Nb as <-. exact O.
      + rewrite set_nth_other in Nb by assumption.
        apply (other_ok (hist s) (lock s) l); auto. intros acc _. apply R'; auto.
    - intros b Q. rewrite set_nth_length by exact La. destruct (Nat.eq_dec b a) as [->|D]; [exact La|].
      apply K, K'; assumption.
  Qed.

  (** The writer after agent [a] moved. *)
  Lemma writer_self : forall s a g' h' m', (a < length (agents s))%nat ->
    writer (mkSt m' (Some a) (set_nth (agents s) a g') h') =
    match at_ g' with PWrite v i => Some (v, i) | _ => None end.
  Proof.
    intros s a g' h' m' L. unfold writer. cbn [lock agents]. rewrite set_nth_same by exact L.
    destruct g' as [q k p]. reflexivity.
  Qed.
  Lemma writer_other : forall s a g' h' m', (a < length (agents s))%nat -> lock s <> Some a ->
    writer (mkSt m' (lock s) (set_nth (agents s) a g') h') = writer s.
  Proof.
    intros s a g' h' m' L K. unfold writer. cbn [lock agents]. destruct (lock s) as [b|]; [|reflexivity].
    rewrite set_nth_other; [reflexivity|exact L|congruence].
  Qed.
  Lemma writer_none : forall s, lock s = None -> writer s = None.
  Proof. intros s E. unfold writer. now rewrite E. Qed.

  Lemma writer_small : forall s l v i, good s l -> writer s = Some (v, i) -> cls (OStore v) /\ (i < esize t)%nat.
  Proof.
    intros s l v i (E & G & K & M) W. unfold writer in W. destruct (lock s) as [b|] eqn:Lk; [|discriminate].
    destruct (nth_error (agents s) b) as [[q k p]|] eqn:N; [|discriminate].
    destruct p; try discriminate. injection W as -> ->.
    specialize (G b _ N). unfold agent_ok in G. cbn [at_] in G. tauto.
  Qed.

  (** Memory outside of stores, seen by an atomic operation. *)
  Lemma atomic_mem : forall s l o, good s l -> cls o -> locked_op o = false -> mem s = A (final t x0 l) /\
    (forall l', match writer s with
            | Some (v, i) => firstn i (A v) ++ skipn i (A (final t x0 l'))
            | None => A (final t x0 l')
            end = A (final t x0 l')).
  Proof.
    intros s l o G C F. pose proof (writer_small s l) as W. pose proof G as (_ & _ & _ & M). unfold mem_ok in M.
    destruct (writer s) as [[v i]|] eqn:E; [|auto].
    destruct (W v i G eq_refl) as [C' Li]. unfold cls in C, C'. destruct kind as [k|] eqn:Ek.
    - cbn in C'. congruence.
    - rewrite (kind_size eq_refl) in Li. assert (i = 0%nat) as -> by lia. cbn in M |- *. auto.
  Qed.
  Lemma atomic_reads : forall o l l' (acc : list Z), cls o -> locked_op o = false -> cls OLoad -> (length acc < esize t)%nat ->
    firstn (length acc) (A (final t x0 l')) = firstn (length acc) (A (final t x0 l)) :> list Z.
  Proof.
    intros o l l' acc C F C' L. unfold cls in C, C'. destruct kind as [k|] eqn:Ek.
    - cbn in C'. congruence.
    - rewrite (kind_size eq_refl) in L. replace (length acc) with 0%nat by lia. reflexivity.
  Qed.

  Lemma final_word : forall l, to_word t (final t x0 l) = word le (A (final t x0 l)).
  Proof. intros. unfold A. now rewrite enc_word. Qed.

  (** An atomic operation takes effect. *)
  Lemma atomic_ok : forall s l a g o m',
    good s l -> nth_error (agents s) a = Some g -> at_ g = PStart o -> locked_op o = false ->
    (mem s = A (final t x0 l) -> m' = A (snd (seq_op t o (final t x0 l)))) ->
    fst (seq_op t o (final t x0 l)) = final t x0 l ->
    good (mkSt m' (lock s) (set_nth (agents s) a (mkAgent (todo g) (made g) (PRet (of_word t (word le (mem s)))))) (hist s))
         (l ++ [mkCall (a, made g) o (final t x0 l)]).
  Proof.
    intros s l a g o m' G N P F Hm Hr. pose proof G as (E & Ga & K & M). pose proof (Ga a g N) as O.
    unfold agent_ok in O. rewrite P in O. destruct O as (C & Li & Hi & P1 & P2 & P3 & P4).
    destruct (atomic_mem s l o G P3 F) as [Mm Mw]. pose proof (final_range l x0 x0_range) as R.
    assert (V : of_word t (word le (mem s)) = final t x0 l).
    { rewrite Mm, <- final_word, of_word_wrap. apply wrap_id, R. }
    rewrite V.
    apply (advance s l a g); auto.
    - apply explains_lin; auto.
    - unfold agent_ok. cbn [todo made at_]. repeat split; auto.
      + intros k Q. rewrite map_app, in_app_iff in Q. destruct Q as [Q|[Q|[]]]; [auto|]. cbn in Q. injection Q as <-. lia.
      + exists o. apply in_or_app. right. left. reflexivity.
    - intros b D k. eapply in_snoc_other; [reflexivity|exact D].
    - tauto.
    - tauto.
    - intros c Q. apply in_or_app. auto.
    - intros b acc D Co _ La. apply (atomic_reads o); assumption.
    - unfold mem_ok. cbn [mem]. rewrite writer_other; [|eapply nth_lt, N|exact P4].
      rewrite Mw, final_snoc. cbn [cop]. apply Hm, Mm.
  Qed.

  Lemma esize_pos : (0 < esize t)%nat.
  Proof. destruct t; cbn; lia. Qed.

  Lemma A_length : forall x, length (A x) = esize t.
  Proof. intro. apply enc_length. Qed.

  Lemma firstn_S : forall (l : list Z) n, (n < length l)%nat -> firstn (S n) l = firstn n l ++ [nth n l 0].
  Proof.
    induction l as [|y l IH]; intros n L; [cbn in L; lia|]. destruct n as [|n]; [reflexivity|].
    change (firstn (S (S n)) (y :: l)) with (y :: firstn (S n) l). rewrite IH by (cbn in L; lia). reflexivity.
  Qed.
  Lemma skipn_cut : forall (l : list Z) n, (n < length l)%nat -> skipn n l = nth n l 0 :: skipn (S n) l.
  Proof.
    induction l as [|y l IH]; intros n L; [cbn in L; lia|]. destruct n as [|n]; [reflexivity|].
    cbn [skipn nth]. apply IH. cbn in L; lia.
  Qed.
  (** Writing byte [i] of [w] after bytes 0 .. i-1. *)
  Lemma write_byte : forall (u w : list Z) i, length u = length w -> (i < length u)%nat ->
    set_nth (firstn i w ++ skipn i u) i (nth i w 0) = firstn (S i) w ++ skipn (S i) u.
  Proof.
    intros u w i E L. unfold set_nth.
    assert (F : length (firstn i w) = i) by (rewrite firstn_length; lia).
    rewrite firstn_app, F, Nat.sub_diag, firstn_all2 by lia. rewrite firstn_O, app_nil_r.
    rewrite skipn_app, F. replace (S i - i)%nat with 1%nat by lia. rewrite skipn_all2 by lia. cbn [app].
    rewrite (skipn_cut u i) by lia. change (skipn 1 (nth i u 0 :: skipn (S i) u)) with (skipn (S i) u).
    rewrite firstn_S by lia. rewrite <- app_assoc. reflexivity.
  Qed.

  Lemma step_good : forall s l a, good s l -> exists l', good (step t le s a) l'.
  Proof.
    intros s l a G. unfold step. destruct (nth_error (agents s) a) as [g|] eqn:N; [|exists l; exact G].
    pose proof G as (E & Ga & K & M). pose proof (Ga a g N) as O. pose proof (nth_lt _ _ _ _ N) as La.
    pose proof (final_range l x0 x0_range) as R. pose proof esize_pos as Ep.
    unfold agent_ok in O. unfold agent_step. destruct (at_ g) as [|o|acc|v i|r|r] eqn:P.
    - (* call *)
      destruct (todo g) as [|o rest] eqn:T; [exists l; exact G|].
      destruct O as (C & Li & Hi & P1 & P2 & P3). exists l.
      apply (advance s l a g); auto; try tauto.
      + apply explains_inv; assumption.
      + unfold agent_ok. cbn [todo made at_]. repeat split; auto.
        * intros o' Q. apply C. right. exact Q.
        * intros k o' Q. apply in_app_or in Q. destruct Q as [Q|[Q|[]]]; [eauto|]. injection Q as <- _. lia.
        * apply in_or_app. right. left. reflexivity.
        * apply C. left. reflexivity.
      + intros b D k o'. rewrite in_app_iff. cbn. split; [intros [Q|[Q|[]]]; [exact Q|congruence]|auto].
      + unfold mem_ok. cbn [mem]. rewrite writer_other by assumption. exact M.
    - destruct O as (C & Li & Hi & P1 & P2 & P3 & P4). destruct o as [|v|k v|e r].
      + (* load takes the mutex *)
        destruct (lock s) as [b|] eqn:Lk; [exists l; exact G|]. exists l.
        apply (advance s l a g); auto; try tauto.
        * unfold agent_ok. cbn [todo made at_]. repeat split; auto.
        * intros b D. rewrite Lk. split; congruence.
        * unfold mem_ok. cbn [mem]. rewrite writer_self by assumption. cbn [at_].
          unfold mem_ok in M. rewrite writer_none in M by exact Lk. exact M.
      + (* store takes the mutex *)
        destruct (lock s) as [b|] eqn:Lk; [exists l; exact G|]. exists l.
        apply (advance s l a g); auto; try tauto.
        * unfold agent_ok. cbn [todo made at_]. repeat split; auto.
        * intros b D. rewrite Lk. split; congruence.
        * unfold mem_ok. cbn [mem]. rewrite writer_self by assumption. cbn [at_ firstn skipn app].
          unfold mem_ok in M. rewrite writer_none in M by exact Lk. exact M.
      + eexists. apply atomic_ok; eauto.
        * intro Mm. rewrite Mm, <- final_word, rmw_spec. reflexivity.
        * destruct k; reflexivity.
      + eexists. apply atomic_ok; eauto.
        intro Mm. rewrite Mm, <- final_word, cas_spec by exact R. cbn [seq_op snd].
        destruct (final t x0 l =? wrap t e); [|reflexivity]. unfold A. rewrite enc_wrap. reflexivity.
    - (* load reads a byte *)
      destruct O as (C & Li & Hi & P1 & P2 & P3 & P4 & P5 & P6).
      assert (Mm : mem s = A (final t x0 l)).
      { unfold mem_ok, writer in M. rewrite P4, N in M. destruct g as [q k p]. cbn in P. subst p. exact M. }
      assert (X : acc ++ [nth (length acc) (mem s) 0] = firstn (S (length acc)) (A (final t x0 l))).
      { rewrite Mm, firstn_S by (rewrite A_length; lia). rewrite P6 at 1. reflexivity. }
      assert (Xl : length (acc ++ [nth (length acc) (mem s) 0]) = S (length acc)).
      { rewrite app_length. cbn. lia. }
      rewrite P4.
      assert (Mo : forall g' l', (forall v i, at_ g' <> PWrite v i) -> final t x0 l' = final t x0 l ->
        mem_ok (mkSt (mem s) (Some a) (set_nth (agents s) a g') (hist s)) l').
      { intros g' l' NW Ef. unfold mem_ok. cbn [mem]. rewrite writer_self by assumption. rewrite Mm, Ef.
        destruct (at_ g') eqn:Eg; try reflexivity. exfalso. eapply NW. reflexivity. }
      destruct (Nat.eqb_spec (length (acc ++ [nth (length acc) (mem s) 0])) (esize t)) as [Le|Ne].
      + exists (l ++ [mkCall (a, made g) OLoad (final t x0 l)]).
        assert (V : of_word t (word le (acc ++ [nth (length acc) (mem s) 0])) = final t x0 l).
        { rewrite X. rewrite firstn_all2 by (rewrite A_length; lia).
          rewrite <- final_word, of_word_wrap. apply wrap_id, R. }
        rewrite V. apply (advance s l a g); auto; try tauto.
        * apply explains_lin; auto.
        * unfold agent_ok. cbn [todo made at_]. repeat split; auto.
          -- intros k Q. rewrite map_app, in_app_iff in Q. destruct Q as [Q|[Q|[]]]; [auto|]. cbn in Q. injection Q as <-. lia.
          -- exists OLoad. apply in_or_app. right. left. reflexivity.
        * intros b D k. eapply in_snoc_other; [reflexivity|exact D].
        * intros b D. rewrite P4. tauto.
        * intros c Q. apply in_or_app. auto.
        * intros b acc' D _ Q. congruence.
        * apply Mo; [discriminate|]. rewrite final_snoc. reflexivity.
      + exists l. apply (advance s l a g); auto; try tauto.
        * unfold agent_ok. cbn [todo made at_]. repeat split; auto; try lia. rewrite Xl. exact X.
        * intros b D. rewrite P4. tauto.
        * apply Mo; [discriminate|reflexivity].
    - (* store writes a byte *)
      destruct O as (C & Li & Hi & P1 & P2 & P3 & P4 & P5).
      assert (Mm : mem s = firstn i (A v) ++ skipn i (A (final t x0 l))).
      { unfold mem_ok, writer in M. rewrite P4, N in M. destruct g as [q k p]. cbn in P. subst p. exact M. }
      change (bytes le (esize t) (to_word t v)) with (A v).
      rewrite Mm, write_byte, P4 by (rewrite !A_length; lia).
      destruct (Nat.eqb_spec (S i) (esize t)) as [Le|Ne].
      + exists (l ++ [mkCall (a, made g) (OStore v) v]). apply (advance s l a g); auto; try tauto.
        * apply explains_lin; auto.
        * unfold agent_ok. cbn [todo made at_]. repeat split; auto.
          -- intros k Q. rewrite map_app, in_app_iff in Q. destruct Q as [Q|[Q|[]]]; [auto|]. cbn in Q. injection Q as <-. lia.
          -- exists (OStore v). apply in_or_app. right. left. reflexivity.
        * intros b D k. eapply in_snoc_other; [reflexivity|exact D].
        * intros b D. rewrite P4. tauto.
        * intros c Q. apply in_or_app. auto.
        * intros b acc' D _ Q. congruence.
        * unfold mem_ok. cbn [mem]. rewrite writer_self by assumption. cbn [at_].
          rewrite final_snoc. cbn [cop seq_op snd]. rewrite Le, firstn_all2, skipn_all2 by (rewrite A_length; lia).
          rewrite app_nil_r. unfold A. now rewrite enc_wrap.
      + exists l. apply (advance s l a g); auto; try tauto.
        * unfold agent_ok. cbn [todo made at_]. repeat split; auto; lia.
        * intros b D. rewrite P4. tauto.
        * unfold mem_ok. cbn [mem]. rewrite writer_self by assumption. cbn [at_]. reflexivity.
    - (* unlock *)
      destruct O as (C & Li & Hi & (o & P1) & P2). exists l. apply (advance s l a g); auto; try tauto.
      + unfold agent_ok. cbn [todo made at_]. repeat split; eauto. discriminate.
      + intros b D. rewrite P2. split; congruence.
      + unfold mem_ok. cbn [mem]. rewrite writer_none by reflexivity.
        unfold mem_ok, writer in M. rewrite P2, N in M. destruct g as [q k p]. cbn in P. subst p. exact M.
    - (* return *)
      destruct O as (C & Li & Hi & (o & P1) & P2). exists l. apply (advance s l a g); auto; try tauto.
      + eapply explains_ret; eauto.
      + unfold agent_ok. cbn [todo made at_]. repeat split; auto.
        * intros k o' Q. apply in_app_or in Q. destruct Q as [Q|[Q|[]]]; [apply Hi in Q; lia|discriminate].
        * intro Q. apply Li in Q. lia.
        * intros o' Q. apply in_app_or in Q. destruct Q as [Q|[Q|[]]]; [apply Hi in Q; lia|discriminate].
      + intros b D k o'. rewrite in_app_iff. cbn. split; [intros [Q|[Q|[]]]; [exact Q|discriminate]|auto].
      + unfold mem_ok. cbn [mem]. rewrite writer_other by assumption. exact M.
  Qed.

  Lemma run_good : forall sched s l, good s l -> exists l', good (run t le sched s) l'.
  Proof.
    induction sched as [|a sched IH]; intros s l G; [exists l; exact G|].
    destruct (step_good s l a G) as [l1 G1]. exact (IH _ _ G1).
  Qed.

  Lemma start_good : forall m progs, m = A x0 -> (forall p o, In p progs -> In o p -> cls o) -> good (start m progs) [].
  Proof.
    intros m progs E C. split; [|split; [|split]].
    - unfold explains. cbn. repeat split; try tauto; try constructor.
    - intros a g N. unfold start in *. cbn [agents hist lock] in *. apply nth_error_In, in_map_iff in N.
      destruct N as (p & <- & I). unfold agent_ok. cbn. repeat split; try tauto; try discriminate. eauto.
    - discriminate.
    - exact E.
  Qed.

  Lemma good_quiet : forall s l, good s l -> quiet s -> mem s = A (final t x0 l).
  Proof.
    intros s l (E & G & K & M) Q. unfold mem_ok in M. destruct (writer s) as [[v i]|] eqn:W; [|exact M].
    unfold writer in W. destruct (lock s) as [b|]; [|discriminate].
    destruct (nth_error (agents s) b) as [[q k p]|] eqn:N; [|discriminate].
    apply nth_error_In in N. apply Q in N. cbn in N. destruct N as [_ ->]. discriminate.
  Qed.

  Lemma good_no_race : forall s l b, kind = Some b -> good s l -> ~ race s.
  Proof.
    intros s l b Kb (E & G & K & M) (a & c & ga & gc & pa & wa & xa & pc & wc & xc & D & Na & Nc & Aa & Ac & Pl & _ & _).
    pose proof (G a ga Na) as Oa. pose proof (G c gc Nc) as Oc.
    unfold agent_ok, cls, next_access in *. rewrite Kb in Oa, Oc.
    destruct (at_ ga) as [|[| |ka va|ea ra]|acc|v i|r|r]; try discriminate;
    destruct (at_ gc) as [|[| |kc vc|ec rc]|acc'|v' i'|r'|r']; try discriminate; cbn in Oa, Oc;
    injection Aa as <- <- <-; injection Ac as <- <- <-; try discriminate;
    destruct Oa as (_ & _ & _ & Oa), Oc as (_ & _ & _ & Oc);
    repeat match goal with H : _ /\ _ |- _ => destruct H end; congruence.
  Qed.
End Lin.

Lemma linearizable_guarded : forall t le m progs sched,
  length m = esize t -> Forall is_byte m -> (esize t = 1%nat \/ unmixed progs) ->
  exists l, explains t (element t le m) (hist (run t le sched (start m progs))) l /\
    (quiet (run t le sched (start m progs)) ->
     element t le (mem (run t le sched (start m progs))) = final t (element t le m) l).
Proof.
  intros t le m progs sched L B C.
  pose proof (element_range t le m) as R.
  assert (exists kind, (kind = None -> esize t = 1%nat) /\ (forall p o, In p progs -> In o p -> cls kind o)) as (kind & K1 & K2).
  { destruct C as [C|[b C]].
    - exists None. split; [auto|]. cbn. auto.
    - exists (Some b). split; [discriminate|]. exact C. }
  destruct (run_good t le (element t le m) R kind K1 sched (start m progs) []) as [l G].
  { apply start_good; [|exact K2]. apply element_enc; assumption. }
  exists l. split; [apply G|]. intro Q. rewrite (good_quiet _ _ _ _ _ _ G Q). apply enc_element, final_range, R.
Qed.

Lemma unmixed_no_race : forall t le m progs sched,
  length m = esize t -> Forall is_byte m -> unmixed progs -> ~ race (run t le sched (start m progs)).
Proof.
  intros t le m progs sched L B [b C].
  pose proof (element_range t le m) as R.
  destruct (run_good t le (element t le m) R (Some b)) with (sched := sched) (s := start m progs) (l := @nil call) as [l G].
  - discriminate.
  - apply start_good; [|exact C]. apply element_enc; assumption.
  - eapply good_no_race; [reflexivity|exact G].
Qed.

(** ** The mutex never blocks the agents for ever *)
Definition holding (p : pc) : bool := match p with PRead _ | PWrite _ _ | PUnlock _ => true | _ => false end.
Definition lock_ok (s : st) : Prop :=
  forall a, lock s = Some a -> exists g, nth_error (agents s) a = Some g /\ holding (at_ g) = true.

Lemma lock_step : forall t le s a, lock_ok s -> (forall b g, nth_error (agents s) b = Some g -> holding (at_ g) = true -> lock s = Some b) ->
  lock_ok (step t le s a) /\
  (forall b g, nth_error (agents (step t le s a)) b = Some g -> holding (at_ g) = true -> lock (step t le s a) = Some b).
Proof.
  intros t le s a L H. unfold step. destruct (nth_error (agents s) a) as [g|] eqn:N; [|auto].
  pose proof (nth_lt _ _ _ _ N) as La.
  assert (U : forall m h g' lk', lk' = lock s \/ lk' = None \/ lk' = Some a ->
    (lk' = lock s -> lk' <> Some a -> holding (at_ g') = false) ->
    (lk' = Some a -> holding (at_ g') = true /\ (lock s = None \/ lock s = Some a)) ->
    (lk' = None -> holding (at_ g') = false /\ (lock s = None \/ lock s = Some a)) ->
    lock_ok (mkSt m lk' (set_nth (agents s) a g') h) /\
    (forall b gb, nth_error (set_nth (agents s) a g') b = Some gb -> holding (at_ gb) = true -> lk' = Some b)).
  { intros m h g' lk' C C1 C2 C3. split.
    - intros b E. cbn [lock agents] in *. destruct (Nat.eq_dec b a) as [->|D].
      + exists g'. rewrite set_nth_same by exact La. split; [reflexivity|]. apply C2, E.
      + rewrite set_nth_other by assumption. apply L. destruct C as [C|[C|C]]; congruence.
    - intros b gb Nb Hb. destruct (Nat.eq_dec b a) as [->|D].
      + rewrite set_nth_same in Nb by exact La. injection Nb as <-.
        destruct lk' as [c|]; [|destruct (C3 eq_refl); congruence].
        destruct (Nat.eq_dec c a) as [->|Dc]; [reflexivity|].
        destruct C as [C|[C|C]]; try congruence. rewrite C1 in Hb; congruence.
      + rewrite set_nth_other in Nb by assumption. pose proof (H b gb Nb Hb) as Q.
        destruct C as [C|[C|C]]; [congruence| |].
        * destruct (C3 C) as [_ [?|?]]; congruence.
        * destruct (C2 C) as [_ [?|?]]; congruence. }
  assert (Ha : holding (at_ g) = true -> lock s = Some a) by (intro; eapply H; eauto).
  assert (Hn : holding (at_ g) = false -> lock s <> Some a).
  { intros F E. destruct (L a E) as (g' & N' & F'). congruence. }
  unfold agent_step. destruct (at_ g) as [|[|v|k v|e r]|acc|v i|r|r]; cbn [holding] in *.
  - destruct (todo g); [auto|]. apply U; cbn; auto. intro; exfalso; apply Hn; congruence.
  - destruct (lock s) eqn:Lk; [rewrite Lk; auto|]. apply U; cbn; auto; discriminate.
  - destruct (lock s) eqn:Lk; [rewrite Lk; auto|]. apply U; cbn; auto; discriminate.
  - apply U; cbn; auto. intro; exfalso; apply Hn; congruence.
  - apply U; cbn; auto. intro; exfalso; apply Hn; congruence.
  - rewrite (Ha eq_refl). apply U; cbn; auto; try discriminate.
    + congruence.
    + intros _. split; [|auto]. destruct (Nat.eqb _ _); reflexivity.
  - rewrite (Ha eq_refl). apply U; cbn; auto; try discriminate.
    + congruence.
    + intros _. split; [|auto]. destruct i; destruct (esize t); try reflexivity; destruct (Nat.eqb _ _); reflexivity.
  - apply U; cbn; auto; try discriminate.
  - apply U; cbn; auto. intro; exfalso; apply Hn; congruence.
Qed.

Lemma lock_run : forall t le sched s, lock_ok s -> (forall b g, nth_error (agents s) b = Some g -> holding (at_ g) = true -> lock s = Some b) ->
  lock_ok (run t le sched s).
Proof.
  induction sched as [|a sched IH]; intros s L H; [exact L|].
  destruct (lock_step t le s a L H) as [L' H']. exact (IH _ L' H').
Qed.

Lemma set_nth_neq : forall A (l : list A) i x y, nth_error l i = Some x -> y <> x -> set_nth l i y <> l.
Proof.
  intros A l i x y N D E. pose proof (set_nth_same A l i y (nth_lt _ _ _ _ N)) as Q. rewrite E in Q. congruence.
Qed.

Lemma progress : forall t le m progs sched s, s = run t le sched (start m progs) -> ~ quiet s ->
  exists a, step t le s a <> s.
Proof.
  intros t le m progs sched s Es Q.
  assert (L : lock_ok s).
  { subst s. apply lock_run; [intros a E; discriminate|].
    intros b g N. cbn [agents start] in N. apply nth_error_In, in_map_iff in N. destruct N as (p & <- & _). discriminate. }
  assert (M : forall a g g' m lk h, nth_error (agents s) a = Some g -> g' <> g -> mkSt m lk (set_nth (agents s) a g') h <> s).
  { intros a g g' m' lk h N D E. apply (f_equal agents) in E. cbn in E. revert E. eapply set_nth_neq; eauto. }
  destruct (lock s) as [a|] eqn:Lk.
  - destruct (L a Lk) as (g & N & H). exists a. unfold step. rewrite N. unfold agent_step.
    destruct (at_ g) as [|o|acc|v i|r|r] eqn:P; try discriminate; eapply M; eauto; intro X; rewrite <- X in P; cbn [at_] in P.
    + destruct (Nat.eqb _ _); [discriminate|]. injection P as P. apply (f_equal (@length Z)) in P. rewrite app_length in P. cbn in P. lia.
    + destruct (Nat.eqb _ _); [discriminate|]. injection P as P. lia.
    + discriminate.
  - assert (exists a g, nth_error (agents s) a = Some g /\ (todo g <> [] \/ at_ g <> PIdle)) as (a & g & N & W).
    { clear - Q. unfold quiet in Q. induction (agents s) as [|g l IH]; [exfalso; apply Q; intros g []|].
      assert (Dec : (todo g = [] /\ at_ g = PIdle) \/ (todo g <> [] \/ at_ g <> PIdle)).
      { destruct (todo g); [|right; left; discriminate]. destruct (at_ g); auto; right; right; discriminate. }
      destruct Dec as [Dg|Dg]; [|exists 0%nat, g; auto].
      destruct IH as (a & ga & N & W); [|exists (S a), ga; auto].
      intro X. apply Q. intros g' [<-|I]; auto. }
    exists a. unfold step. rewrite N. unfold agent_step. rewrite Lk.
    destruct (at_ g) as [|[|v|k v|e r]|acc|v i|r|r] eqn:P; try (eapply M; eauto; intro X; rewrite <- X in P; discriminate).
    + destruct (todo g); [destruct W; congruence|]. eapply M; eauto. intro X. rewrite <- X in P. discriminate.
    + eapply M; eauto; intro X; rewrite <- X in P; cbn [at_] in P.
      destruct (Nat.eqb _ _); [discriminate|]. injection P as P. apply (f_equal (@length Z)) in P. rewrite app_length in P. cbn in P. lia.
    + eapply M; eauto; intro X; rewrite <- X in P; cbn [at_] in P.
      destruct (Nat.eqb _ _); [discriminate|]. injection P as P. lia.
Qed.
