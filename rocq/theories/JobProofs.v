(** Proofs about the job queue. *)
From Coq Require Import List Arith Bool Lia.
Import ListNotations.
From Verif Require Import JobModel JobSpec.

Section P.
  Variables C W R : Type.
  Variable body : C -> prog C W R.

  Notation st := (st C W R).
  Notation job := (job C R).
  Definition cr (j : job) : C * R := (jcode C R j, jrealm C R j).
  Definition runrec (j : job) : nat * R := (jid C R j, jrealm C R j).

  Record Inv (s : st) (k : nat) : Prop := {
    i_ids : map (jid C R) (enqd C W R s) = seq 0 (nextid C W R s);
    i_k : k <= length (enqd C W R s);
    i_q : queue C W R s = skipn k (enqd C W R s);
    i_ran : ran C W R s = map runrec (firstn k (enqd C W R s))
  }.

  (** Effect of a body on the runtime. *)
  Lemma exec_nosolve solve p s :
    nosolve C W R p ->
    exists new,
      exec C W R solve p s =
      JDone C W R (mkSt C W R (queue C W R s ++ new) (fst (effects C W R p (world C W R s)))
                     (bot_realm C W R s) (nextid C W R s + length new)
                     (enqd C W R s ++ new) (ran C W R s)) /\
      map cr new = snd (effects C W R p (world C W R s)) /\
      map (jid C R) new = seq (nextid C W R s) (length new).
  Proof.
    intros H. revert s. induction H as [|f Hf IH|c r k Hk IH]; intros s; cbn [exec effects].
    - exists []. rewrite !app_nil_r, Nat.add_0_r. destruct s; simpl; auto.
    - specialize (IH (world C W R s)). destruct (f (world C W R s)) as [w k] eqn:Ef. simpl in IH.
      destruct (IH (set_world C W R s w)) as (new & E & M & N). exists new.
      rewrite E. auto.
    - destruct (IH (rjs_job_enqueue C W R c r s)) as (new & E & M & N).
      exists (mkJob C R (nextid C W R s) c r :: new). rewrite E.
      simpl in *. destruct (effects C W R k (world C W R s)) as [w' l] eqn:Ee. simpl in *.
      rewrite <- !app_assoc, Nat.add_succ_r. simpl. split; [reflexivity|]. split.
      + simpl. rewrite M. reflexivity.
      + f_equal. exact N.
  Qed.

  Lemma node_head j q : node C R (j :: q) (jid C R j) = Some j.
  Proof. unfold node. simpl. rewrite Nat.eqb_refl. reflexivity. Qed.

  Definition hd_id (q : list job) : option nat :=
    match q with [] => None | j :: _ => Some (jid C R j) end.

  Lemma next_head j q : next_of C R (j :: q) (jid C R j) = Some (hd_id q).
  Proof. simpl. rewrite Nat.eqb_refl. destruct q; reflexivity. Qed.

  Lemma skipn_cons_nth {X} k (l : list X) x t :
    skipn k l = x :: t -> firstn (S k) l = firstn k l ++ [x] /\ skipn (S k) l = t /\ k < length l.
  Proof.
    revert l. induction k as [|k IH]; intros l H.
    - simpl in H. subst. simpl. repeat split; lia.
    - destruct l as [|y l]; [discriminate|]. simpl in H.
      destruct (IH l H) as (A & B & D). split; [|split].
      + change (firstn (S (S k)) (y :: l)) with (y :: firstn (S k) l). rewrite A. reflexivity.
      + exact B.
      + simpl. lia.
  Qed.

  Lemma inv_nodup s k : Inv s k -> NoDup (map (jid C R) (queue C W R s)).
  Proof.
    intros I. rewrite (i_q _ _ I).
    pose proof (seq_NoDup (nextid C W R s) 0) as N. rewrite <- (i_ids _ _ I) in N.
    rewrite <- (firstn_skipn k (enqd C W R s)), map_app in N.
    clear -N. induction (map (jid C R) (firstn k (enqd C W R s))) as [|x l IH]; [exact N|].
    inversion N; auto.
  Qed.

  Lemma filter_head j q :
    NoDup (map (jid C R) (j :: q)) ->
    filter (fun x => negb (jid C R x =? jid C R j)) (j :: q) = q.
  Proof.
    intros N. simpl. rewrite Nat.eqb_refl. simpl. simpl in N.
    inversion N as [|? ? H1 H2]; subst. clear N.
    induction q as [|x q IH]; [reflexivity|]. simpl in *.
    destruct (Nat.eqb_spec (jid C R x) (jid C R j)) as [E|E]; [exfalso; apply H1; auto|].
    simpl. f_equal. apply IH; [tauto|]. inversion H2; auto.
  Qed.

  Definition good_cur (s : st) (cur : option nat) : Prop :=
    cur = None \/ (queue C W R s <> [] /\ cur = hd_id (queue C W R s)).

  Hypothesis Hns : forall c, nosolve C W R (body c).

  (** One turn of the inner loop. *)
  Lemma turn s k j rest solve :
    Inv s k -> queue C W R s = j :: rest ->
    exists s2 s3 new,
      exec C W R solve (body (jcode C R j))
           (log_run C W R (set_realm C W R s (jrealm C R j)) (jid C R j) (jrealm C R j))
      = JDone C W R s2 /\
      remove_node C W R s2 (jid C R j) = Some s3 /\
      Inv s3 (S k) /\
      queue C W R s3 = rest ++ new /\
      enqd C W R s3 = enqd C W R s ++ new /\
      map cr new = snd (effects C W R (body (jcode C R j)) (world C W R s)) /\
      world C W R s3 = fst (effects C W R (body (jcode C R j)) (world C W R s)).
  Proof.
    intros I Q.
    destruct (exec_nosolve solve (body (jcode C R j))
              (log_run C W R (set_realm C W R s (jrealm C R j)) (jid C R j) (jrealm C R j)) (Hns _))
      as (new & E & M & N). cbn in E, M, N. rewrite Q in E.
    eexists. exists (mkSt C W R (rest ++ new)
      (fst (effects C W R (body (jcode C R j)) (world C W R s)))
      (jrealm C R j) (nextid C W R s + length new) (enqd C W R s ++ new)
      (ran C W R s ++ [(jid C R j, jrealm C R j)])), new.
    split; [exact E|].
    pose proof (i_q _ _ I) as Hq. rewrite Q in Hq. symmetry in Hq.
    destruct (skipn_cons_nth _ _ _ _ Hq) as (F1 & F2 & F3).
    assert (Ids : map (jid C R) (enqd C W R s ++ new) = seq 0 (nextid C W R s + length new)).
    { rewrite map_app, (i_ids _ _ I), N, seq_app. reflexivity. }
    assert (ND : NoDup (map (jid C R) (j :: rest ++ new))).
    { pose proof (seq_NoDup (nextid C W R s + length new) 0) as X. rewrite <- Ids in X.
      rewrite <- (firstn_skipn k (enqd C W R s)), Hq, <- app_assoc, map_app in X.
      clear -X. induction (map (jid C R) (firstn k (enqd C W R s))) as [|x l IH]; [exact X|].
      inversion X; auto. }
    split.
    { unfold remove_node. cbn [queue]. cbn [app]. rewrite node_head.
      rewrite (filter_head j (rest ++ new) ND). reflexivity. }
    split; [|cbn; auto].
    split; cbn.
    - exact Ids.
    - rewrite app_length. lia.
    - transitivity (skipn (S k) (enqd C W R s ++ new)); [|reflexivity].
      rewrite skipn_app, F2. replace (S k - length (enqd C W R s)) with 0 by lia. reflexivity.
    - change (match enqd C W R s ++ new with
              | [] => [] | a :: l => a :: firstn k l end)
        with (firstn (S k) (enqd C W R s ++ new)).
      rewrite firstn_app, F1. replace (S k - length (enqd C W R s)) with 0 by lia.
      simpl. rewrite app_nil_r, map_app, (i_ran _ _ I). reflexivity.
  Qed.

  Definition all_ran (s : st) (k : nat) : Prop :=
    map (jid C R) (enqd C W R s) = seq 0 (length (enqd C W R s)) /\
    k <= length (enqd C W R s) /\
    ran C W R s = map runrec (firstn k (enqd C W R s)).

  Lemma ids_len s k : Inv s k -> map (jid C R) (enqd C W R s) = seq 0 (length (enqd C W R s)).
  Proof.
    intros I. pose proof (i_ids _ _ I) as H. rewrite H. f_equal.
    apply (f_equal (@length _)) in H. rewrite map_length, seq_length in H. lia.
  Qed.

  Lemma loop_spec fuel old cur s k :
    Inv s k -> good_cur s cur ->
    match solve_loop C W R body fuel old cur s with
    | JCrash _ _ _ _ => False
    | JFuel _ _ _ s' => exists k', k <= k' /\ all_ran s' k'
    | JDone _ _ _ s' =>
      queue C W R s' = [] /\ bot_realm C W R s' = old /\ all_ran s' (length (enqd C W R s')) /\
      exists n l, fifo C W R body n (world C W R s) (map cr (queue C W R s))
                  = Some (l, world C W R s') /\
                  map cr (enqd C W R s') = map cr (firstn k (enqd C W R s)) ++ l
    end.
  Proof.
    revert cur s k. induction fuel as [|fuel IH]; intros cur s k I G; cbn [solve_loop].
    - exists k. split; [lia|]. split; [eapply ids_len; eauto|]. split; apply I.
    - destruct cur as [i|].
      + destruct G as [G|[G1 G2]]; [discriminate|].
        destruct (queue C W R s) as [|j rest] eqn:Q; [congruence|].
        cbn [hd_id] in G2. injection G2 as ->.
        rewrite node_head, next_head. cbv zeta.
        change (bot_realm C W R (set_realm C W R s (jrealm C R j))) with (jrealm C R j).
        destruct (turn s k j rest
                   (fun s' => solve_loop C W R body fuel (bot_realm C W R s') None s') I Q)
          as (s2 & s3 & new & E1 & E2 & I3 & Q3 & En3 & M3 & W3).
        rewrite E1, E2.
        assert (G3 : good_cur s3 (hd_id rest)).
        { destruct rest as [|j' rest']; [left; reflexivity|right].
          rewrite Q3. simpl. split; [discriminate|reflexivity]. }
        specialize (IH (hd_id rest) s3 (S k) I3 G3).
        destruct (solve_loop C W R body fuel old (hd_id rest) s3) as [s'|s'|s'].
        * destruct IH as (A & B & D & n & l & F & L). split; [exact A|]. split; [exact B|].
          split; [exact D|]. exists (S n), (cr j :: l). split.
          -- simpl. rewrite Q3, map_app, M3, W3 in F.
             change (fst (cr j)) with (jcode C R j).
             destruct (effects C W R (body (jcode C R j)) (world C W R s)) as [w' nw].
             simpl in F. rewrite F. reflexivity.
          -- rewrite L, En3.
             pose proof (i_q _ _ I) as Hq. rewrite Q in Hq. symmetry in Hq.
             destruct (skipn_cons_nth _ _ _ _ Hq) as (F1 & F2 & F3).
             rewrite firstn_app, F1. replace (S k - length (enqd C W R s)) with 0 by lia.
             simpl. rewrite app_nil_r, map_app, <- app_assoc. reflexivity.
        * destruct IH as (k' & L & A). exists k'. split; [lia|exact A].
        * exact IH.
      + destruct (queue C W R s) as [|j rest] eqn:Q.
        * cbn.
          assert (k = length (enqd C W R s)).
          { pose proof (i_q _ _ I) as Hq. rewrite Q in Hq.
            apply (f_equal (@length _)) in Hq. rewrite skipn_length in Hq. simpl in Hq.
            pose proof (i_k _ _ I). lia. }
          split; [exact Q|]. split; [reflexivity|]. split.
          { split; cbn; [eapply ids_len; eauto|]. subst k. split; [lia|apply I]. }
          exists 0, []. split; [reflexivity|]. subst k. rewrite firstn_all, app_nil_r. reflexivity.
        * rewrite <- Q.
          apply (IH (Some (jid C R j)) s k I). right. rewrite Q. split; [discriminate|reflexivity].
  Qed.

  Lemma loop_total n w p l wf :
    fifo C W R body n w p = Some (l, wf) ->
    forall s k old cur, Inv s k -> good_cur s cur ->
      world C W R s = w -> map cr (queue C W R s) = p ->
      exists fuel s', solve_loop C W R body fuel old cur s = JDone C W R s' /\
        world C W R s' = wf /\ map cr (enqd C W R s') = map cr (firstn k (enqd C W R s)) ++ l.
  Proof.
    revert w p l wf. induction n as [|n IH]; intros w p l wf F s k old cur I G Hw Hp.
    - destruct p as [|c p]; [|discriminate]. simpl in F. injection F as <- <-.
      assert (Q : queue C W R s = []) by (destruct (queue C W R s); [reflexivity|discriminate]).
      destruct G as [->|[G _]]; [|congruence].
      exists 1. cbn. rewrite Q. eexists. split; [reflexivity|]. cbn. split; [exact Hw|].
      assert (k = length (enqd C W R s)).
      { pose proof (i_q _ _ I) as Hq. rewrite Q in Hq.
        apply (f_equal (@length _)) in Hq. rewrite skipn_length in Hq. simpl in Hq.
        pose proof (i_k _ _ I). lia. }
      subst k. rewrite firstn_all, app_nil_r. reflexivity.
    - destruct (queue C W R s) as [|j rest] eqn:Q.
      + simpl in Hp. subst p. simpl in F. injection F as <- <-.
        destruct G as [->|[G _]]; [|congruence].
        exists 1. cbn. rewrite Q. eexists. split; [reflexivity|]. cbn. split; [exact Hw|].
        assert (k = length (enqd C W R s)).
        { pose proof (i_q _ _ I) as Hq. rewrite Q in Hq.
          apply (f_equal (@length _)) in Hq. rewrite skipn_length in Hq. simpl in Hq.
          pose proof (i_k _ _ I). lia. }
        subst k. rewrite firstn_all, app_nil_r. reflexivity.
      + simpl in Hp. subst p. cbn [fifo] in F.
        change (fst (cr j)) with (jcode C R j) in F.
        destruct (effects C W R (body (jcode C R j)) w) as [w' nw] eqn:Ee.
        destruct (fifo C W R body n w' (map cr rest ++ nw)) as [[l0 w0]|] eqn:F0; [|discriminate].
        injection F as <- <-.
        (* a turn started at the node itself, for any fuel of the nested solver *)
        assert (T : exists fuel s', solve_loop C W R body fuel old (Some (jid C R j)) s
                      = JDone C W R s' /\ world C W R s' = w0 /\
                      map cr (enqd C W R s') = map cr (firstn k (enqd C W R s)) ++ cr j :: l0).
        { destruct (turn s k j rest (fun s' => JFuel C W R s') I Q)
            as (s2 & s3 & new & E1 & E2 & I3 & Q3 & En3 & M3 & W3).
          rewrite Hw, Ee in M3, W3. simpl in M3, W3.
          assert (G3 : good_cur s3 (hd_id rest)).
          { destruct rest as [|j' rest']; [left; reflexivity|right].
            rewrite Q3. simpl. split; [discriminate|reflexivity]. }
          destruct (IH w' (map cr rest ++ nw) l0 w0 F0 s3 (S k) old (hd_id rest) I3 G3 W3)
            as (fuel & s' & Es & Ws & Ls).
          { rewrite Q3, map_app, M3. reflexivity. }
          exists (S fuel), s'. split; [|split; [exact Ws|]].
          - cbn [solve_loop]. rewrite Q, node_head, next_head. cbv zeta.
            change (bot_realm C W R (set_realm C W R s (jrealm C R j))) with (jrealm C R j).
            destruct (exec_nosolve (fun s' => solve_loop C W R body fuel (bot_realm C W R s') None s')
                       (body (jcode C R j))
                       (log_run C W R (set_realm C W R s (jrealm C R j)) (jid C R j) (jrealm C R j)) (Hns _))
              as (na & Ea & Ma & Na).
            destruct (exec_nosolve (fun s' => JFuel C W R s')
                       (body (jcode C R j))
                       (log_run C W R (set_realm C W R s (jrealm C R j)) (jid C R j) (jrealm C R j)) (Hns _))
              as (nb & Eb & Mb & Nb).
            assert (na = nb).
            { clear -Ma Mb Na Nb. cbn in *. rewrite <- Mb in Ma. clear Mb.
              revert Na Nb. generalize (nextid C W R s). revert nb Ma.
              induction na as [|a na IHn]; intros [|b nb] Ma n Na Nb; try discriminate; [reflexivity|].
              simpl in *. injection Ma as A1 A2 A3. injection Na as N1 N2. injection Nb as N3 N4.
              f_equal; [|eapply IHn; eauto]. destruct a, b; simpl in *; congruence. }
            subst nb. rewrite Eb in E1. rewrite E1 in Ea.
            rewrite Ea, E2. exact Es.
          - rewrite Ls, En3.
            pose proof (i_q _ _ I) as Hq. rewrite Q in Hq. symmetry in Hq.
            destruct (skipn_cons_nth _ _ _ _ Hq) as (F1 & F2 & F3).
            rewrite firstn_app, F1. replace (S k - length (enqd C W R s)) with 0 by lia.
            simpl. rewrite app_nil_r, map_app, <- app_assoc. reflexivity. }
        destruct G as [->|[G1 G2]].
        * destruct T as (fuel & s' & Es & Ws & Ls). exists (S fuel), s'.
          split; [|auto]. cbn [solve_loop]. rewrite Q. exact Es.
        * rewrite Q in G2. simpl in G2. subst cur. exact T.
  Qed.

  Lemma start_inv w r0 init :
    Inv (start C W R w r0 init) 0 /\
    world C W R (start C W R w r0 init) = w /\
    bot_realm C W R (start C W R w r0 init) = r0 /\
    map cr (queue C W R (start C W R w r0 init)) = init.
  Proof.
    unfold start.
    assert (H : forall s, Inv s 0 ->
      let s' := fold_left (fun s cr => rjs_job_enqueue C W R (fst cr) (snd cr) s) init s in
      Inv s' 0 /\ world C W R s' = world C W R s /\ bot_realm C W R s' = bot_realm C W R s /\
      map cr (queue C W R s') = map cr (queue C W R s) ++ init).
    { induction init as [|[c r] init IH]; intros s I; cbn.
      - rewrite app_nil_r. auto.
      - destruct (IH (rjs_job_enqueue C W R c r s)) as (A & B & D & F).
        + split; cbn.
          * rewrite map_app, (i_ids _ _ I).
            change (seq 0 (nextid C W R s) ++ [nextid C W R s] = seq 0 (S (nextid C W R s))).
            rewrite seq_S. reflexivity.
          * lia.
          * rewrite (i_q _ _ I). reflexivity.
          * rewrite (i_ran _ _ I). reflexivity.
        + cbn in *. split; [exact A|]. rewrite B, D, F.
          rewrite map_app, <- app_assoc. auto. }
    destruct (H (mkSt C W R [] w r0 0 [] [])) as (A & B & D & F).
    { split; cbn; auto. }
    cbn in *. auto.
  Qed.

  Theorem jobs_fifo w r0 init fuel :
    match rjs_solve_jobs C W R body fuel (start C W R w r0 init) with
    | JCrash _ _ _ _ => False
    | JFuel _ _ _ s' => exists k, all_ran s' k
    | JDone _ _ _ s' =>
      queue C W R s' = [] /\ bot_realm C W R s' = r0 /\ all_ran s' (length (enqd C W R s')) /\
      exists n, fifo C W R body n w init = Some (map cr (enqd C W R s'), world C W R s')
    end.
  Proof.
    destruct (start_inv w r0 init) as (I & Hw & Hr & Hq).
    pose proof (loop_spec fuel r0 None _ 0 I (or_introl eq_refl)) as L.
    unfold rjs_solve_jobs. rewrite Hr.
    destruct (solve_loop C W R body fuel r0 None (start C W R w r0 init)).
    - destruct L as (A & B & D & n & l & F & M). split; [exact A|]. split; [exact B|].
      split; [exact D|]. exists n. rewrite M. simpl. rewrite Hw, Hq in F. exact F.
    - destruct L as (k & _ & A). eauto.
    - exact L.
  Qed.

  Theorem jobs_complete w r0 init n l wf :
    fifo C W R body n w init = Some (l, wf) ->
    exists fuel s', rjs_solve_jobs C W R body fuel (start C W R w r0 init) = JDone C W R s' /\
      world C W R s' = wf /\ map cr (enqd C W R s') = l.
  Proof.
    intros F. destruct (start_inv w r0 init) as (I & Hw & Hr & Hq).
    destruct (loop_total n w init l wf F _ 0 r0 None I (or_introl eq_refl) Hw Hq)
      as (fuel & s' & E & Ws & Ls).
    exists fuel, s'. unfold rjs_solve_jobs. rewrite Hr. auto.
  Qed.
End P.
