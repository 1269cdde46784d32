(** * Generators: proofs *)

From Coq Require Import List Bool Arith Lia.
From Verif Require Import GenModel GenSpec.
Import ListNotations.

Section Async.

Variable A : world.
Variable D : deviations.

Local Notation W := (W A).
Local Notation V := (V A).
Local Notation core := (core A).
Local Notation config := (config A).
Local Notation sconf := (sconf A).

Definition plain_req (r : req A) : Prop := r_kind A r = KNext -> r_val A r = undef A.

(** What the proof needs of the surroundings, for each deviation left off. *)
Definition calls_plain : Prop :=
  forall b i w, match snd (body A b i w) with ECall KNext v => v = undef A | _ => True end.
Definition tails_plain : Prop :=
  forall b i w, match snd (body A b i w) with EReturn t _ => t = false | _ => True end.

Hypothesis H_calls : drained_values D = true \/ calls_plain.
Hypothesis H_tails : tail_returns D = true \/ tails_plain.
Hypothesis H_star : star_escapes D = true \/ always_resolves A \/ no_star A.

Definition order (x : core) : Prop :=
  answered (log A x) ++ map (r_id A) (q A x) = seq 0 (nid A x) /\ requested (log A x) = seq 0 (nid A x).

Definition plain_q (x : core) : Prop := drained_values D = true \/ Forall plain_req (q A x).

(** The body is between two places. *)
Record pre (x : core) : Prop := {
  p_st : st A x = Exec; p_wait : wait A x = false; p_rwait : rwait A x = false;
  p_q : q A x <> []; p_md : md A x <> Bad A; p_order : order x; p_plain : plain_q x }.

Definition settled_core (x : core) : Prop :=
  rwait A x = match st A x with AwaitRet => true | _ => false end /\
  match st A x with Exec | AwaitRet => q A x <> [] | _ => q A x = [] end /\
  match md A x with
  | Bad _ => False
  | Run _ _ => st A x = Exec /\ wait A x = false
  | Idle _ => wait A x = match st A x with Exec => true | _ => false end
  end.

Definition awaits (k : cont A) (c : config) : Prop :=
  match k with
  | CAwait _ => op A c = Some OCommand /\ ip A c = PAwait
  | CReturn _ => op A c = Some OCommand /\ ip A c = PReturn
  | CYieldAwait _ => op A c = Some OYield /\ ip A c = PYield
  | CUnwrap _ None => op A c = Some OYieldRet
  | CUnwrap _ (Some it) => op A c = Some OReqRet /\ itr A c = Some it /\ (no_star A -> False)
  | CInner _ k it => op A c = Some OInner /\ rk A c = TReq k /\ itr A c = Some it /\ (no_star A -> False)
  | CClose _ => op A c = Some OTypeErr
  | CRetAwait _ => op A c = Some ORetUndef
  | CStart _ | CYield _ _ => False
  end.

Definition stands (c : config) (k : cont A) : Prop :=
  match md A (g A c) with
  | Idle _ =>
      match st A (g A c) with
      | Exec => awaits k c
      | Start => k = CStart A /\ op A c = None /\ ip A c = PStart
      | Suspended =>
          match k with
          | CYield _ None => op A c = None /\ ip A c = PYield
          | CYield _ (Some it) => op A c = Some OReq /\ itr A c = Some it /\ (no_star A -> False)
          | _ => False
          end
      | _ => True
      end
  | _ => True
  end.

Record rel (c : config) (s : sconf) : Prop := {
  r_core : sg A s = g A c; r_ok : settled_core (g A c); r_order : order (g A c);
  r_plain : plain_q (g A c); r_stands : stands c (ct A s) }.

Definition mk (x : core) (k : cont A) : sconf := {| sg := x; ct := k |}.

Lemma answered_app : forall (l m : list (entry A)), answered (l ++ m) = answered l ++ answered m.
Proof. induction l as [|e l]; intros; [auto|]. destruct e; cbn; rewrite IHl; auto. Qed.

Lemma requested_app : forall (l m : list (entry A)), requested (l ++ m) = requested l ++ requested m.
Proof. induction l as [|e l]; intros; [auto|]. destruct e; cbn; rewrite IHl; auto. Qed.

Lemma pre_wd : forall x w, pre x -> pre (set_wd A x w).
Proof. intros x w [? ? ? ? ? ? ?]; split; auto. Qed.

Lemma pre_bd : forall x b, pre x -> pre (set_bd A x b).
Proof. intros x b [? ? ? ? ? ? ?]; split; auto. Qed.

Lemma rel_go : forall c k i, pre (g A c) -> rel (go A c (Run A i)) (to_body A (mk (g A c) k) i).
Proof.
  intros c k i [a b d e m o p].
  split; auto.
  - repeat split; cbn; rewrite ?a; auto.
  - exact Logic.I.
Qed.

(** ** Awaiting *)

Lemma rel_await : forall c v o p k0 k,
  pre (g A c) ->
  awaits k (set_ip A (set_op A c (Some o)) p) ->
  rel (await A c v o p) (s_await A (mk (g A c) k0) v k (thrown A)).
Proof.
  intros c v o p k0 k H Hk. unfold await, s_await. cbn [sg mk].
  destruct (w_resolve A v (wd A (g A c))) as [w [e|]].
  - apply (rel_go (with_wd A c w)). apply (pre_wd _ w H).
  - destruct H as [a b d e m o' pl].
    split; auto.
    + repeat split; cbn; rewrite ?a; auto.
    + unfold stands. cbn. rewrite a.
      destruct k as [| | | |[it|]|[it|]|k' it| |]; exact Hk.
Qed.

Lemma rel_do : forall (X : Type) c k0 (h : W -> W * (X + V)) f k,
  pre (g A c) ->
  (forall w x, pre (g A (with_wd A c w)) -> rel (f (with_wd A c w) x) (k (mk (g A (with_wd A c w)) k0) x)) ->
  rel (or_throw A c (h (wd A (g A c))) f) (s_do A (mk (g A c) k0) h k).
Proof.
  intros X c k0 h f k H Hf. unfold or_throw, s_do. cbn [sg mk].
  destruct (h (wd A (g A c))) as [w [x|e]].
  - apply (Hf w x), (pre_wd _ w H).
  - apply (rel_go (with_wd A c w)). apply (pre_wd _ w H).
Qed.

(** ** [yield*] *)

Lemma rel_star : forall c k0 it k,
  pre (g A c) -> itr A c = Some it -> rk A c = TReq k -> (no_star A -> False) ->
  rel (star_next A c) (s_star A it (completion A k (rv A c)) (mk (g A c) k0)).
Proof.
  intros c k0 it k H Hi Hk Hn. unfold star_next. rewrite Hi, Hk.
  destruct k; cbn [completion]; unfold s_star.
  - apply (rel_do _ c k0 (w_next A it (rv A c))); [exact H|].
    intros w ir H1. apply rel_await; [exact H1|]. cbn. auto.
  - apply (rel_do _ c k0 (w_method A it KThrow)); [exact H|].
    intros w [m|] H1.
    + apply (rel_do _ (with_wd A c w) k0 (w_call A m it (Some (rv A c)))); [exact H1|].
      intros w1 ir H2. apply rel_await; [exact H2|]. cbn. auto.
    + apply (rel_do _ (with_wd A c w) k0 (w_method A it KRet)); [exact H1|].
      intros w1 [m|] H2.
      * apply (rel_do _ (with_wd A (with_wd A c w) w1) k0 (w_call A m it None)); [exact H2|].
        intros w2 ir H3. apply rel_await; [exact H3|]. reflexivity.
      * apply (rel_go (with_wd A (with_wd A c w) w1)); exact H2.
  - apply (rel_do _ c k0 (w_method A it KRet)); [exact H|].
    intros w [m|] H1.
    + apply (rel_do _ (with_wd A c w) k0 (w_call A m it (Some (rv A c)))); [exact H1|].
      intros w1 ir H2. apply rel_await; [exact H2|]. cbn. auto.
    + apply (rel_await (with_wd A c w) (rv A c)); [exact H1|]. reflexivity.
Qed.

(** ** Requests delivered to the body *)

Lemma head_cases : forall x : core, q A x <> [] -> exists r t, q A x = r :: t.
Proof. intros x H; destruct (q A x) as [|r t]; [congruence|eauto]. Qed.

Lemma rel_unwrap_yield : forall c k0 r t,
  pre (g A c) -> q A (g A c) = r :: t ->
  rel (yield_resume A c) (s_unwrap A D None (completion A (r_kind A r) (r_val A r)) (mk (g A c) k0)).
Proof.
  intros c k0 r t H Hq. unfold yield_resume. rewrite Hq.
  destruct (r_kind A r); cbn [completion s_unwrap received_by].
  - apply (rel_go (set_recv A c (TReq KNext) (r_val A r))); exact H.
  - apply (rel_go (set_recv A c (TReq KThrow) (r_val A r))); exact H.
  - replace (fun (s : sconf) (e : V) => if star_escapes D then thrown A s e else to_body A s (IThrow e))
      with (fun (s : sconf) (e : V) => if star_escapes D then thrown A s e else thrown A s e) by reflexivity.
    assert (rel (await A c (r_val A r) OYieldRet PAfter)
                (s_await A (mk (g A c) k0) (r_val A r) (CUnwrap A None) (thrown A))) as X.
    { apply rel_await; [exact H|]. reflexivity. }
    unfold s_await in *. destruct (w_resolve A (r_val A r) (wd A (sg A (mk (g A c) k0)))) as [w [e|]]; [|exact X].
    destruct (star_escapes D); exact X.
Qed.

Lemma rel_unwrap_star : forall c k0 it r t,
  pre (g A c) -> q A (g A c) = r :: t -> itr A c = Some it -> (no_star A -> False) ->
  rel (star_request A c) (s_unwrap A D (Some it) (completion A (r_kind A r) (r_val A r)) (mk (g A c) k0)).
Proof.
  intros c k0 it r t H Hq Hi Hn. unfold star_request. rewrite Hq.
  destruct (r_kind A r); cbn [completion s_unwrap received_by].
  - apply (rel_star (set_recv A c (TReq KNext) (r_val A r)) k0 it KNext); auto.
  - apply (rel_star (set_recv A c (TReq KThrow) (r_val A r)) k0 it KThrow); auto.
  - assert (rel (await A c (r_val A r) OReqRet PStar)
                (s_await A (mk (g A c) k0) (r_val A r) (CUnwrap A (Some it)) (thrown A))) as X.
    { apply rel_await; [exact H|]. cbn. auto. }
    unfold s_await in *. cbn [sg mk] in *.
    destruct (w_resolve A (r_val A r) (wd A (g A c))) as [w [e|]] eqn:E; [|exact X].
    destruct H_star as [->|[Hr|Hs]].
    + exact X.
    + exfalso. pose proof (Hr (r_val A r) (wd A (g A c))) as Y. rewrite E in Y. discriminate.
    + contradiction.
Qed.

(** ** Yielding *)

Lemma complete_step_answer : forall x v d,
  complete_step A x KNext v d = s_answer A x (Fulfilled A v d) /\
  complete_step A x KThrow v d = s_answer A x (Rejected A v).
Proof. intros. unfold complete_step, s_answer. destruct (q A x); auto. Qed.

Lemma order_answer : forall x a, q A x <> [] -> order x -> order (s_answer A x a).
Proof.
  intros x a H [O R]. unfold s_answer. destruct (q A x) as [|r t] eqn:E; [congruence|].
  split; cbn.
  - rewrite answered_app, <- app_assoc. cbn. cbn in O. exact O.
  - rewrite requested_app, app_nil_r. exact R.
Qed.

Lemma plain_answer : forall x a, plain_q x -> plain_q (s_answer A x a).
Proof.
  intros x a [H|H]; [left; exact H|]. right. unfold s_answer.
  destruct (q A x) as [|r t] eqn:E; cbn; [rewrite E; constructor|]. inversion H; auto.
Qed.

Lemma answer_fields : forall x a, q A x <> [] ->
  q A (s_answer A x a) = tl (q A x) /\ st A (s_answer A x a) = st A x /\ wait A (s_answer A x a) = wait A x /\
  rwait A (s_answer A x a) = rwait A x /\ md A (s_answer A x a) = md A x /\ wd A (s_answer A x a) = wd A x.
Proof. intros x a H. unfold s_answer. destruct (q A x); [congruence|]. repeat split. Qed.

Lemma rel_yielded : forall c v k0 d o f,
  pre (g A c) ->
  (d = None /\ o = None /\ ip A c = PYield /\ op A c = None \/
   exists it, d = Some it /\ o = Some OReq /\ itr A c = Some it /\ (no_star A -> False)) ->
  (forall c', pre (g A c') -> ip A c' = ip A c -> itr A c' = itr A c -> op A c' = op A c ->
     forall r t, q A (g A c') = r :: t ->
     rel (f c') (s_unwrap A D d (completion A (r_kind A r) (r_val A r)) (mk (g A c') k0))) ->
  rel (yielded A c v o f) (s_yield A D d v (mk (g A c) k0)).
Proof.
  intros c v k0 d o f H Hd Hf. unfold yielded, s_yield. cbn [sg mk].
  rewrite (proj1 (complete_step_answer (g A c) v false)).
  set (x := s_answer A (g A c) (Fulfilled A v false)).
  assert (X : order x /\ plain_q x /\ st A x = Exec /\ wait A x = false /\ rwait A x = false /\ md A x <> Bad A).
  { destruct H as [a b e' h m o' pl].
    pose proof (answer_fields (g A c) (Fulfilled A v false) h) as (_ & F2 & F3 & F4 & F5 & _).
    unfold x. rewrite F2, F3, F4, F5. repeat split; auto; try apply order_answer; auto using plain_answer. }
  clearbody x. destruct X as (X1 & X2 & X3 & X4 & X5 & X6).
  destruct (q A x) as [|r t] eqn:E.
  - assert (M : match md A x with Bad _ => Bad A | _ => Idle A end = Idle A) by (destruct (md A x); congruence).
    split; auto.
    + cbn. rewrite M. reflexivity.
    + repeat split; cbn; rewrite ?M; auto.
    + unfold stands. cbn. rewrite M. destruct Hd as [(-> & -> & Hp & _)|(it & -> & -> & Hi & Hn)]; auto.
  - refine (Hf (set_g A c x) _ eq_refl eq_refl eq_refl r t E).
    split; auto. cbn. congruence.
Qed.

(** ** The awaited promise is settled *)

Lemma rel_settled : forall c k ok v,
  pre (g A c) -> awaits k c -> rel (resume A c ok v) (s_settled A D (mk (g A c) k) ok v).
Proof.
  intros c k ok v H Hk. unfold resume, s_settled. cbn [ct mk].
  set (c1 := set_op A c None).
  assert (H1 : pre (g A c1)) by exact H.
  destruct k as [| | | |[it|]|[it|]|k it| |]; cbn in Hk; try contradiction.
  - destruct Hk as [-> Hp]. destruct ok; cbn [negb].
    + unfold continue. cbn [c1 set_op ip]. rewrite Hp. apply (rel_go c1); exact H1.
    + apply (rel_go c1); exact H1.
  - destruct Hk as [-> Hp]. destruct ok; cbn [negb].
    + unfold continue. cbn [c1 set_op ip]. rewrite Hp. apply (rel_go c1); exact H1.
    + apply (rel_go c1); exact H1.
  - destruct Hk as [-> Hp]. destruct ok; cbn [negb].
    + apply (rel_yielded c1); [exact H1| |].
      * left. auto.
      * intros c' H' Hip _ _ r t Hq. unfold continue. cbn in Hip. rewrite Hip, Hp.
        apply (rel_unwrap_yield c' _ r t); auto.
    + apply (rel_go c1); exact H1.
  - destruct Hk as (-> & Hi & Hn). destruct ok; cbn [negb received_by].
    + apply (rel_star (set_recv A c1 (TReq KRet) v) _ it KRet); auto.
    + apply (rel_star (set_recv A c1 (TReq KThrow) v) _ it KThrow); auto.
  - rewrite Hk. destruct ok; cbn [negb received_by]; apply (rel_go c1); exact H1.
  - destruct Hk as (-> & Hr & Hi & Hn). destruct ok; cbn [negb]; [|apply (rel_go c1); exact H1].
    destruct (is_object A v); cbn [negb]; [|apply (rel_go c1); exact H1].
    apply (rel_do _ c1 _ (w_done A v)); [exact H1|].
    intros w done H2.
    apply (rel_do _ (with_wd A c1 w) _ (w_value A v)); [exact H2|].
    intros w1 x H3.
    set (c2 := with_wd A (with_wd A c1 w) w1) in *.
    destruct done.
    + assert (E : rk A c2 = TReq k) by exact Hr. rewrite E.
      assert (X : star_next A (set_recv A c2 TEnd x) = go A (set_recv A c2 TEnd x) (Run A (INext x))).
      { unfold star_next. cbn [set_recv itr rk rv]. change (itr A c2) with (itr A c). rewrite Hi. reflexivity. }
      destruct k.
      * rewrite X. apply (rel_go (set_recv A c2 TEnd x)); exact H3.
      * rewrite X. apply (rel_go (set_recv A c2 TEnd x)); exact H3.
      * apply (rel_go c2); exact H3.
    + apply (rel_yielded c2); [exact H3| |].
      * right. exists it. auto.
      * intros c' H' _ Hit _ r t Hq. apply (rel_unwrap_star c' _ it r t); auto.
        rewrite Hit. exact Hi.
  - rewrite Hk. destruct ok; cbn [negb]; apply (rel_go c1); exact H1.
  - rewrite Hk. destruct ok; cbn [negb]; apply (rel_go c1); exact H1.
Qed.

(** ** The queue after the end *)

Record drains (x : core) : Prop := {
  n_st : st A x = Completed; n_wait : wait A x = false; n_rwait : rwait A x = false;
  n_md : md A x = Idle A; n_order : order x; n_plain : plain_q x }.

Lemma drains_answer : forall x a, q A x <> [] -> drains x -> drains (s_answer A x a).
Proof.
  intros x a Hq [a1 b c d e f].
  destruct (answer_fields x a Hq) as (_ & F2 & F3 & F4 & F5 & _).
  split; try congruence; auto using order_answer, plain_answer.
Qed.

Lemma drain_ok : forall l x,
  q A x = l -> drains x ->
  drain A l x = s_drain A D l x /\
  settled_core (drain A l x) /\ order (drain A l x) /\ plain_q (drain A l x) /\
  md A (drain A l x) = Idle A /\ st A (drain A l x) <> Exec /\
  st A (drain A l x) <> Start /\ st A (drain A l x) <> Suspended.
Proof.
  induction l as [|r t IH]; intros x Hq H.
  - destruct H as [a b c d e f]. cbn. unfold settled_core. rewrite a, b, c, d.
    repeat split; auto; try apply e; discriminate.
  - assert (N : q A x <> []) by congruence.
    cbn [drain s_drain].
    destruct (r_kind A r) eqn:Ek.
    + rewrite (proj1 (complete_step_answer x (r_val A r) true)).
      assert (Ev : (if drained_values D then r_val A r else undef A) = r_val A r).
      { destruct (drained_values D) eqn:Ed; [reflexivity|].
        destruct (n_plain x H) as [Y|Y]; [congruence|]. rewrite Hq in Y. inversion Y. symmetry. auto. }
      rewrite Ev. apply IH; [|apply drains_answer; auto].
      rewrite (proj1 (answer_fields x _ N)), Hq. reflexivity.
    + rewrite (proj2 (complete_step_answer x (r_val A r) true)).
      apply IH; [|apply drains_answer; auto].
      rewrite (proj1 (answer_fields x _ N)), Hq. reflexivity.
    + cbn [set_st wd]. destruct (w_resolve A (r_val A r) (wd A x)) as [w [e|]].
      * rewrite (proj2 (complete_step_answer _ e true)).
        assert (Es : set_st A (set_wd A (set_st A x AwaitRet) w) Completed = set_wd A x w).
        { unfold set_st, set_wd. cbn. rewrite (n_st x H). reflexivity. }
        rewrite Es.
        assert (Hw : drains (set_wd A x w)) by (destruct H; split; auto).
        apply IH; [|apply drains_answer; auto].
        rewrite (proj1 (answer_fields (set_wd A x w) _ N)). cbn. rewrite Hq. reflexivity.
      * destruct H as [a b c d e f]. split; [reflexivity|].
        unfold settled_core. cbn. rewrite b, d. repeat split; auto; try apply e; discriminate.
Qed.

Lemma drain_queue_ok : forall c x k,
  drains x -> rel (set_g A c (drain_queue A x)) (mk (s_drain_all A D x) k).
Proof.
  intros c x k H. unfold drain_queue, s_drain_all. rewrite (n_st x H).
  destruct (drain_ok (q A x) x eq_refl H) as (E & K & O & P & M & S1 & S2 & S3).
  split; cbn [sg mk set_g g]; auto.
  unfold stands. cbn [set_g g]. rewrite M.
  destruct (st A (drain A (q A x) x)); auto; congruence.
Qed.

Lemma rel_finish : forall c k0 kd v a,
  pre (g A c) ->
  (kd = KNext /\ a = Fulfilled A v true \/ kd = KThrow /\ a = Rejected A v) ->
  rel (finish A c kd v) (s_finish A D (mk (g A c) k0) a).
Proof.
  intros c k0 kd v a H Ha. unfold finish, s_finish. cbn [sg mk].
  set (x := set_md A (set_st A (g A c) Completed) (Idle A)).
  assert (E : complete_step A x kd v true = s_answer A x a).
  { destruct Ha as [[-> ->]|[-> ->]]; apply complete_step_answer. }
  rewrite E. apply drain_queue_ok.
  destruct H as [h1 h2 h3 h4 h5 h6 h7].
  apply drains_answer; [exact h4|]. split; auto.
Qed.

(** ** Requests *)

Lemma order_queued : forall x k v,
  order x ->
  order (set_q A (set_nid A (add_log A x (LReq A (nid A x) k v)) (S (nid A x)))
          (q A x ++ [{| r_kind := k; r_val := v; r_id := nid A x |}])).
Proof.
  intros x k v [O R]. split.
  - cbn [set_q set_nid add_log log q nid]. rewrite answered_app, map_app, seq_S. cbn [answered].
    rewrite app_nil_r, app_assoc, O. reflexivity.
  - cbn [set_q set_nid add_log log q nid]. rewrite requested_app, seq_S, R. reflexivity.
Qed.

Lemma order_now : forall x k v a,
  q A x = [] -> order x ->
  order (add_log A (set_nid A (add_log A x (LReq A (nid A x) k v)) (S (nid A x))) (LAns A (nid A x) a)).
Proof.
  intros x k v a Q [O R]. split.
  - cbn [set_nid add_log log q nid]. rewrite !answered_app, seq_S, Q. cbn [answered map].
    rewrite !app_nil_r. rewrite Q in O. cbn [map] in O. rewrite app_nil_r in O. rewrite O. reflexivity.
  - cbn [set_nid add_log log q nid]. rewrite !requested_app, seq_S. cbn [requested].
    rewrite !app_nil_r, R. reflexivity.
Qed.

Lemma app_not_nil : forall (X : Type) (l : list X) a, l ++ [a] <> [].
Proof. intros X l a; destruct l; discriminate. Qed.

(** The request of a settled generator. *)
Lemma rel_request : forall c s k v,
  rel c s ->
  (drained_values D = true \/ (k = KNext -> v = undef A)) ->
  md A (g A c) = Idle A ->
  rel (request A c k v) (s_request A D s k v).
Proof.
  intros c [x kk] k v [Hc [Hrw [Hq Hm]] Ho Hp Hs] Hv M. cbn in Hc. subst x.
  unfold request, s_request. cbn [sg g set_g add_log set_nid st q log nid].
  rewrite M in Hm.
  assert (PQ : forall y : core, q A y = q A (g A c) ++ [{| r_kind := k; r_val := v; r_id := nid A (g A c) |}] ->
     plain_q y).
  { intros y Ey. destruct Hv as [Hv|Hv]; [left; exact Hv|].
    destruct Hp as [Hp|Hp]; [left; exact Hp|]. right. rewrite Ey. apply Forall_app. split; [exact Hp|].
    constructor; [|constructor]. exact Hv. }
  assert (N1 : nid A (g A c) + 1 = S (nid A (g A c))) by lia.
  assert (N2 : nid A (g A c) + 1 - 1 = nid A (g A c)) by lia.
  set (y := set_q A (set_nid A (add_log A (g A c) (LReq A (nid A (g A c)) k v)) (S (nid A (g A c))))
              (q A (g A c) ++ [{| r_kind := k; r_val := v; r_id := nid A (g A c) |}])).
  assert (Ey : enqueue A (add_log A (set_nid A (g A c) (nid A (g A c) + 1)) (LReq A (nid A (g A c)) k v)) k v = y).
  { unfold enqueue, y. cbn. rewrite N1. unfold set_q, set_nid, add_log. cbn. rewrite Nat.sub_0_r. reflexivity. }
  assert (Oy : order y) by (apply order_queued; exact Ho).
  assert (Py : plain_q y) by (apply PQ; reflexivity).
  assert (Qy : q A y <> []) by apply app_not_nil.
  (* a request that waits *)
  assert (Rq : st A (g A c) = Exec \/ st A (g A c) = AwaitRet -> rel (set_g A c y) (mk y kk)).
  { intros Hst. split; auto.
    - unfold settled_core. change (rwait A (g A (set_g A c y))) with (rwait A (g A c)).
      change (st A (g A (set_g A c y))) with (st A (g A c)).
      change (md A (g A (set_g A c y))) with (md A (g A c)).
      change (wait A (g A (set_g A c y))) with (wait A (g A c)). rewrite M.
      repeat split; auto. destruct Hst as [-> | ->]; exact Qy. }
  (* a request that resumes the generator *)
  assert (Pe : st A (g A c) = Start \/ st A (g A c) = Suspended -> pre (set_st A y Exec)).
  { intros Hst. split; auto; cbn.
    - rewrite Hm. destruct Hst as [-> | ->]; reflexivity.
    - rewrite Hrw. destruct Hst as [-> | ->]; reflexivity.
    - rewrite M. discriminate. }
  assert (Rs : st A (g A c) = Suspended ->
     rel (resume_generator A (set_g A c y) v) (s_resume A D (mk y kk) (completion A k v))).
  { intros Hst. specialize (Pe (or_intror Hst)).
    unfold stands in Hs. rewrite M, Hst in Hs. rewrite Hst in Hq.
    unfold resume_generator, s_resume. cbn [sg mk s_core ct].
    assert (E1 : q A (set_st A y Exec) = [{| r_kind := k; r_val := v; r_id := nid A (g A c) |}]).
    { unfold y. cbn. rewrite Hq. reflexivity. }
    cbn [ct mk] in Hs. destruct kk as [| | | |[it|]|[it|]|? ?| |]; try contradiction.
    - destruct Hs as (Hop & Hi & Hn). unfold resume. cbn [set_g op]. rewrite Hop. cbn [negb].
      refine (rel_unwrap_star (set_op A (set_g A c (set_st A y Exec)) None) _ it _ [] _ E1 Hi Hn). exact Pe.
    - destruct Hs as (Hop & Hi). unfold resume. cbn [set_g op]. rewrite Hop.
      unfold continue. cbn [set_op set_g ip]. rewrite Hi.
      refine (rel_unwrap_yield (set_op A (set_g A c (set_st A y Exec)) None) _ _ [] _ E1). exact Pe. }
  assert (Rt : st A (g A c) = Start ->
     rel (resume_generator A (set_g A c y) v) (s_resume A D (mk y kk) (completion A k v))).
  { intros Hst. specialize (Pe (or_introl Hst)).
    unfold stands in Hs. rewrite M, Hst in Hs. destruct Hs as (Hk & Hop & Hi). cbn [ct mk] in Hk. subst kk.
    unfold resume_generator, s_resume. cbn [sg mk s_core ct].
    unfold resume. cbn [set_g op]. rewrite Hop.
    unfold continue. cbn [set_op set_g ip]. rewrite Hi.
    refine (rel_go (set_op A (set_g A c (set_st A y Exec)) None) _ _ _). exact Pe. }
  (* answered at once *)
  assert (Ra : forall a s', st A (g A c) = Completed \/ st A (g A c) = Start -> s' = Completed ->
     rel (set_g A c (add_log A (set_st A (set_nid A (add_log A (g A c) (LReq A (nid A (g A c)) k v)) (S (nid A (g A c)))) s')
            (LAns A (nid A (g A c)) a)))
         (mk (add_log A (set_st A (set_nid A (add_log A (g A c) (LReq A (nid A (g A c)) k v)) (S (nid A (g A c)))) s')
            (LAns A (nid A (g A c)) a)) kk)).
  { intros a s' Hst ->.
    assert (Q0 : q A (g A c) = []) by (destruct Hst as [E|E]; rewrite E in Hq; exact Hq).
    assert (W0 : wait A (g A c) = false) by (destruct Hst as [E|E]; rewrite E in Hm; exact Hm).
    assert (R0 : rwait A (g A c) = false) by (destruct Hst as [E|E]; rewrite E in Hrw; exact Hrw).
    split; auto.
    - unfold settled_core. cbn. rewrite M, W0, R0. auto.
    - apply (order_now (g A c) k v a Q0 Ho).
    - unfold stands. cbn. rewrite M. exact Logic.I. }
  (* a return of a finished generator *)
  assert (Rr : k = KRet -> st A (g A c) = Completed \/ st A (g A c) = Start ->
     rel (set_g A c (await_return A (set_st A y AwaitRet))) (mk (s_drain_all A D (set_st A y Completed)) kk)).
  { intros Hk Hst.
    assert (Q0 : q A (g A c) = []) by (destruct Hst as [E|E]; rewrite E in Hq; exact Hq).
    assert (W0 : wait A (g A c) = false) by (destruct Hst as [E|E]; rewrite E in Hm; exact Hm).
    assert (R0 : rwait A (g A c) = false) by (destruct Hst as [E|E]; rewrite E in Hrw; exact Hrw).
    assert (Dy : drains (set_st A y Completed)) by (split; auto).
    assert (E1 : await_return A (set_st A y AwaitRet) = drain_queue A (set_st A y Completed)).
    { unfold await_return, drain_queue. cbn [set_st st q wd].
      assert (Eq : q A y = [{| r_kind := k; r_val := v; r_id := nid A (g A c) |}]).
      { unfold y. cbn. rewrite Q0. reflexivity. }
      rewrite Eq. cbn [r_kind r_val drain]. rewrite Hk.
      cbn [set_st wd].
      destruct (w_resolve A v (wd A y)) as [w [e|]]; [|reflexivity].
      match goal with |- context [complete_step A ?z KThrow e true] => set (z0 := z) end.
      assert (E2 : q A z0 = [{| r_kind := k; r_val := v; r_id := nid A (g A c) |}]) by exact Eq.
      assert (E3 : z0 = set_st A (set_wd A (set_st A (set_st A y Completed) AwaitRet) w) Completed) by reflexivity.
      rewrite <- E3. assert (E4 : st A z0 = Completed) by reflexivity. clearbody z0.
      unfold complete_step. rewrite !E2. cbn [add_log set_q st q drain]. rewrite E4. reflexivity. }
    rewrite E1. apply drain_queue_ok. exact Dy. }
  rewrite N1 in *.
  destruct k, (st A (g A c)) eqn:Est.
  - rewrite Ey. apply Rt; auto.
  - rewrite Ey. apply Rs; auto.
  - rewrite Ey. apply Rq; auto.
  - rewrite Ey. apply Rq; auto.
  - assert (Z := Ra (Fulfilled A (undef A) true) Completed (or_introl eq_refl) eq_refl).
    unfold set_st in Z. cbn in Z. rewrite <- Est in Z. exact Z.
  - cbn [set_g g set_st st]. assert (Z := Ra (Rejected A v) Completed (or_intror eq_refl) eq_refl). exact Z.
  - cbn [set_g g add_log set_nid st]. rewrite ?Est. rewrite Ey. apply Rs; auto.
  - cbn [set_g g add_log set_nid st]. rewrite ?Est. rewrite Ey. apply Rq; auto.
  - cbn [set_g g add_log set_nid st]. rewrite ?Est. rewrite Ey. apply Rq; auto.
  - cbn [set_g g add_log set_nid st]. rewrite ?Est.
    assert (Z := Ra (Rejected A v) Completed (or_introl eq_refl) eq_refl).
    unfold set_st in Z |- *. cbn in Z |- *. rewrite <- Est in Z |- *. exact Z.
  - rewrite Ey. change (st A y) with (st A (g A c)). rewrite ?Est. apply Rr; auto.
  - rewrite Ey. change (st A y) with (st A (g A c)). rewrite ?Est. apply Rs; auto.
  - rewrite Ey. change (st A y) with (st A (g A c)). rewrite ?Est. apply Rq; auto.
  - rewrite Ey. change (st A y) with (st A (g A c)). rewrite ?Est. apply Rq; auto.
  - rewrite Ey. change (st A y) with (st A (g A c)). rewrite ?Est. apply Rr; auto.
Qed.

(** ** The body *)

Lemma pre_run : forall c s i, rel c s -> md A (g A c) = Run A i -> pre (g A c).
Proof.
  intros c s i [Hc [Hrw [Hq Hm]] Ho Hp _] M. rewrite M in Hm. destruct Hm as [Hs Hw].
  rewrite Hs in Hrw, Hq. split; auto. rewrite M. discriminate.
Qed.

(** A method called by the body itself. *)
Lemma rel_call : forall c k0 k v i,
  pre (g A c) ->
  (drained_values D = true \/ (k = KNext -> v = undef A)) ->
  rel (go A (request A c k v) (Run A i)) (to_body A (s_request A D (mk (g A c) k0) k v) i).
Proof.
  intros c k0 k v i H Hv.
  set (y := set_q A (set_nid A (add_log A (g A c) (LReq A (nid A (g A c)) k v)) (S (nid A (g A c))))
              (q A (g A c) ++ [{| r_kind := k; r_val := v; r_id := nid A (g A c) |}])).
  assert (Y : pre y).
  { destruct H as [a b d e m o p]. split; auto.
    - apply app_not_nil.
    - apply order_queued; exact o.
    - destruct Hv as [Hv|Hv]; [left; exact Hv|]. destruct p as [p|p]; [left; exact p|].
      right. apply Forall_app. split; [exact p|]. constructor; [exact Hv|constructor]. }
  assert (Es := p_st _ H).
  assert (N1 : nid A (g A c) + 1 = S (nid A (g A c))) by lia.
  assert (Ey : enqueue A (add_log A (set_nid A (g A c) (nid A (g A c) + 1)) (LReq A (nid A (g A c)) k v)) k v = y).
  { unfold enqueue, y. cbn. rewrite N1. unfold set_q, set_nid, add_log. cbn. rewrite Nat.sub_0_r. reflexivity. }
  assert (E1 : request A c k v = set_g A c y).
  { unfold request. destruct k; cbn [set_g g add_log set_nid st]; rewrite ?Es; cbn [set_g g add_log set_nid st];
      rewrite ?Es, Ey; cbn [set_g g]; try reflexivity.
    change (st A y) with (st A (g A c)). rewrite Es. reflexivity. }
  assert (E2 : s_request A D (mk (g A c) k0) k v = mk y k0).
  { unfold s_request. cbn [sg mk add_log set_nid st]. rewrite Es. destruct k; reflexivity. }
  rewrite E1, E2. apply (rel_go (set_g A c y)). exact Y.
Qed.

Lemma rel_step : forall c s i,
  rel c s -> md A (g A c) = Run A i -> rel (step A c i) (s_step A D s i).
Proof.
  intros c [x kk] i R M. pose proof (pre_run _ _ _ R M) as H.
  destruct R as [Hc _ _ _ _]. cbn in Hc. subst x.
  unfold step, s_step. cbn [sg].
  destruct (body A (bd A (g A c)) i (wd A (g A c))) as [[w b] e] eqn:E.
  set (c1 := set_g A c (set_bd A (set_wd A (g A c) w) b)).
  change (s_core A {| sg := g A c; ct := kk |} (set_bd A (set_wd A (g A c) w) b)) with (mk (g A c1) kk).
  assert (H1 : pre (g A c1)) by (apply pre_bd, pre_wd, H).
  destruct e as [v|v|v|t v|v|v|k v].
  - apply (rel_await c1 v OYield PYield kk (CYieldAwait A)); [exact H1|]. cbn. auto.
  - apply (rel_do _ c1 kk (w_iter A v)); [exact H1|].
    intros w1 it H2.
    refine (rel_star (set_itr A (set_recv A (with_wd A c1 w1) (TReq KNext) (undef A)) (Some it)) kk it KNext H2 eq_refl eq_refl _).
    intros N. specialize (N (bd A (g A c)) i (wd A (g A c))). rewrite E in N. exact N.
  - apply (rel_await c1 v OCommand PAwait kk (CAwait A)); [exact H1|]. cbn. auto.
  - assert (Ret : rel (await A c1 v OCommand PReturn) (s_await A (mk (g A c1) kk) v (CReturn A) (thrown A))).
    { apply rel_await; [exact H1|]. cbn. auto. }
    destruct t; [|exact Ret].
    destruct (tail_returns D) eqn:Et; cbn [andb].
    + apply (rel_go c1). exact H1.
    + exfalso. destruct H_tails as [X|X]; [congruence|].
      specialize (X (bd A (g A c)) i (wd A (g A c))). rewrite E in X. discriminate.
  - apply rel_finish; auto.
  - apply rel_finish; auto.
  - apply (rel_call c1 kk k v); [exact H1|].
    destruct H_calls as [X|X]; [left; exact X|right]. intros ->.
    specialize (X (bd A (g A c)) i (wd A (g A c))). rewrite E in X. exact X.
Qed.

(** ** All actions *)

Lemma rel_act : forall c s a,
  rel c s ->
  (drained_values D = true \/ action_plain A a) ->
  rel (act A c a) (s_act A D s a).
Proof.
  intros c s a R Ha. unfold act, s_act. rewrite (r_core _ _ R).
  destruct (md A (g A c)) as [i| |] eqn:M.
  - destruct a; try exact R. apply rel_step; auto.
  - destruct a as [|k v|ok v|ok v]; try exact R.
    + apply rel_request; auto. destruct Ha as [Ha|Ha]; [left; exact Ha|right].
      intros ->. exact Ha.
    + destruct (wait A (g A c)) eqn:Hw; [|exact R].
      destruct s as [x kk]. destruct R as [Hc [Hrw [Hq Hm]] Ho Hp Hs]. cbn in Hc. subst x.
      rewrite M, Hw in Hm.
      assert (Es : st A (g A c) = Exec) by (destruct (st A (g A c)); congruence).
      unfold stands in Hs. rewrite M, Es in Hs. rewrite Es in Hq, Hrw. cbn [ct] in Hs.
      refine (rel_settled (set_g A c (set_wait A (g A c) false)) kk ok v _ _).
      * split; auto. cbn. rewrite M. discriminate.
      * destruct kk as [| | | |[?|]|[?|]|? ?| |]; exact Hs.
    + destruct (rwait A (g A c)) eqn:Hw; [|exact R].
      destruct s as [x kk]. destruct R as [Hc [Hrw [Hq Hm]] Ho Hp Hs]. cbn in Hc. subst x.
      rewrite M in Hm.
      assert (Es : st A (g A c) = AwaitRet) by (destruct (st A (g A c)); congruence).
      rewrite Es in Hq, Hm.
      unfold await_return_settled.
      set (x := set_st A (set_rwait A (g A c) false) Completed).
      assert (E : complete_step A x (if ok then KNext else KThrow) v true
                  = s_answer A x (if ok then Fulfilled A v true else Rejected A v)).
      { destruct ok; apply complete_step_answer. }
      rewrite E. cbn [sg]. fold x.
      refine (drain_queue_ok c _ kk _).
      apply drains_answer; [exact Hq|]. split; auto.
  - destruct R as [Hc [Hrw [Hq Hm]] Ho Hp Hs]. rewrite M in Hm. contradiction.
Qed.

Lemma rel_start : forall w, rel (start A w) (s_start A w).
Proof.
  intros w. split; auto.
  - repeat split; auto.
  - split; reflexivity.
  - right. constructor.
  - repeat split; auto.
Qed.

Theorem rel_run : forall l w,
  drained_values D = true \/ Forall (action_plain A) l ->
  rel (run A (start A w) l) (s_run A D (s_start A w) l).
Proof.
  intros l w Hl. pose proof (rel_start w) as R. revert R.
  generalize (start A w) (s_start A w). unfold run, s_run.
  induction l as [|a l IH]; intros c s R; [exact R|].
  cbn [fold_left]. apply IH.
  - destruct Hl as [Hl|Hl]; [left; exact Hl|right]. inversion Hl; auto.
  - apply rel_act; auto. destruct Hl as [Hl|Hl]; [left; exact Hl|right]. inversion Hl; auto.
Qed.

End Async.

(** ** Consequences *)

Theorem conforms_actual : forall A w l,
  g A (run A (start A w) l) = sg A (s_run A all_deviations (s_start A w) l).
Proof.
  intros A w l. symmetry.
  apply (rel_run A all_deviations); left; reflexivity.
Qed.

Lemma body_plain_calls : forall A, body_plain A -> calls_plain A.
Proof.
  intros A H b i w. specialize (H b i w). destruct (snd (body A b i w)) as [ | | | | | |k v]; auto.
Qed.

Lemma body_plain_tails : forall A, body_plain A -> tails_plain A.
Proof. intros A H b i w. specialize (H b i w). destruct (snd (body A b i w)); auto. Qed.

Theorem conforms_guarded : forall A w l,
  body_plain A -> always_resolves A \/ no_star A -> Forall (action_plain A) l ->
  g A (run A (start A w) l) = sg A (s_run A standard (s_start A w) l).
Proof.
  intros A w l Hb Hr Hl. symmetry.
  apply (rel_run A standard); right; auto using body_plain_calls, body_plain_tails.
Qed.

Lemma run_rel : forall A w l,
  rel A all_deviations (run A (start A w) l) (s_run A all_deviations (s_start A w) l).
Proof. intros. apply rel_run; left; reflexivity. Qed.

Theorem answers_in_order : forall A w l,
  let x := g A (run A (start A w) l) in
  answered (log A x) ++ map (r_id A) (q A x) = requested (log A x) /\
  requested (log A x) = seq 0 (nid A x).
Proof.
  intros A w l x. destruct (r_order _ _ _ _ (run_rel A w l)) as [O R].
  fold x in O, R. rewrite R. auto.
Qed.

Theorem never_bad : forall A w l, md A (g A (run A (start A w) l)) <> Bad A.
Proof.
  intros A w l E. destruct (r_ok _ _ _ _ (run_rel A w l)) as (_ & _ & M). rewrite E in M. exact M.
Qed.

(** Every unanswered request has something that will go on with it: the body
    runs, or it waits for a promise, or a return waits for one; never two of
    them. *)
Theorem nothing_forgotten : forall A w l,
  let x := g A (run A (start A w) l) in
  q A x <> [] ->
  (exists i, md A x = Run A i /\ wait A x = false /\ rwait A x = false) \/
  (md A x = Idle A /\ wait A x = true /\ rwait A x = false) \/
  (md A x = Idle A /\ wait A x = false /\ rwait A x = true).
Proof.
  intros A w l x Q. destruct (r_ok _ _ _ _ (run_rel A w l)) as (R & S1 & M). fold x in R, S1, M.
  destruct (md A x) as [i| |] eqn:E; [|idtac|contradiction].
  - destruct M as [M1 M2]. rewrite M1 in R. left. exists i. auto.
  - destruct (st A x); try contradiction; auto.
Qed.

(** A generator that waits for nothing has no unanswered request. *)
Theorem idle_answered : forall A w l,
  let x := g A (run A (start A w) l) in
  md A x = Idle A -> wait A x = false -> rwait A x = false -> q A x = [].
Proof.
  intros A w l x E W0 R0. destruct (r_ok _ _ _ _ (run_rel A w l)) as (R & S1 & M). fold x in R, S1, M.
  rewrite E in M. destruct (st A x); auto; congruence.
Qed.

(** ** Generators *)

Section Sync.

Variable A : world.

Definition place_of (c : gen A) : place A :=
  match gmd A c with
  | Bad _ => Wrong A
  | Run _ i => Running A i
  | Idle _ =>
      match gst A c with
      | Start => AtStart A
      | Suspended => match gip A c, git A c with PStar, Some it => AtStar A it | _, _ => AtYield A end
      | _ => Over A
      end
  end.

Definition abs (c : gen A) : sgen A :=
  {| pl := place_of c; slog := glog A c; swd := gwd A c; sbd := gbd A c |}.

Definition at_rest (c : gen A) : Prop :=
  match gmd A c with
  | Bad _ => True
  | Run _ _ => gst A c = Exec
  | Idle _ =>
      match gst A c with
      | Start => gip A c = PStart
      | Suspended => gip A c = PYield \/ gip A c = PStar /\ git A c <> None
      | Completed => True
      | Exec | AwaitRet => False
      end
  end.

(** The model ends in a state that looks like the standard's, whatever place
    the standard's state had before. *)
Definition same (c : gen A) (z : sgen A) : Prop := abs c = z /\ at_rest c.

Definition zz (c : gen A) (p : place A) : sgen A :=
  {| pl := p; slog := glog A c; swd := gwd A c; sbd := gbd A c |}.

Lemma same_run : forall c p i, gst A c = Exec -> same (ggo A c (Run A i)) (z_set A (zz c p) (Running A i)).
Proof. intros; split; [reflexivity|exact H]. Qed.

Lemma same_do : forall (X : Type) c p (h : W A -> W A * (X + V A)) f k,
  gst A c = Exec ->
  (forall w x, same (f (gset_wd A c w) x) (k (zz (gset_wd A c w) p) x)) ->
  same (gor A c (h (gwd A c)) f) (z_do A (zz c p) h k).
Proof.
  intros X c p h f k H Hf. unfold gor, z_do. cbn [swd zz].
  destruct (h (gwd A c)) as [w [x|e]]; [apply Hf|].
  apply (same_run (gset_wd A c w)). exact H.
Qed.

Lemma same_inner : forall c p it ir f,
  gst A c = Exec -> git A c = Some it ->
  same (inner_result A c ir (fun c v => ggo A c (Run A (f v)))) (z_inner A (zz c p) it ir f).
Proof.
  intros c p it ir f H Hi. unfold inner_result, z_inner.
  destruct (is_object A ir); cbn [negb]; [|apply (same_run c); exact H].
  apply (same_do _ c p (w_done A ir)); [exact H|].
  intros w [|].
  - apply (same_do _ (gset_wd A c w) p (w_value A ir)); [exact H|].
    intros w1 x. apply (same_run (gset_wd A (gset_wd A c w) w1)). exact H.
  - split.
    + unfold abs, place_of. cbn. rewrite Hi. reflexivity.
    + right. cbn. rewrite Hi. split; [reflexivity|discriminate].
Qed.

Lemma same_star : forall c p it,
  gst A c = Exec -> git A c = Some it ->
  same (gstar_next A c) (z_star A (zz c p) it (completion A (gk A c) (gv A c))).
Proof.
  intros c p it H Hi. unfold gstar_next. rewrite Hi. destruct (gk A c); cbn [completion]; unfold z_star.
  - apply (same_do _ c p (w_next A it (gv A c))); [exact H|].
    intros w ir. apply (same_inner (gset_wd A c w) p it ir INext); auto.
  - apply (same_do _ c p (w_method A it KThrow)); [exact H|].
    intros w [m|].
    + apply (same_do _ (gset_wd A c w) p (w_call A m it (Some (gv A c)))); [exact H|].
      intros w1 ir. apply (same_inner (gset_wd A (gset_wd A c w) w1) p it ir INext); auto.
    + unfold close_inner.
      apply (same_do _ (gset_wd A c w) p (w_method A it KRet)); [exact H|].
      intros w1 [m|].
      * apply (same_do _ (gset_wd A (gset_wd A c w) w1) p (w_call A m it None)); [exact H|].
        intros w2 res. destruct (is_object A res);
          apply (same_run (gset_wd A (gset_wd A (gset_wd A c w) w1) w2)); exact H.
      * apply (same_run (gset_wd A (gset_wd A c w) w1)). exact H.
  - apply (same_do _ c p (w_method A it KRet)); [exact H|].
    intros w [m|].
    + apply (same_do _ (gset_wd A c w) p (w_call A m it (Some (gv A c)))); [exact H|].
      intros w1 ir. apply (same_inner (gset_wd A (gset_wd A c w) w1) p it ir IRet); auto.
    + apply (same_run (gset_wd A c w)). exact H.
Qed.

Lemma same_request : forall c k v,
  at_rest c -> gmd A c = Idle A -> same (grequest A c k v) (z_request A (abs c) k v).
Proof.
  intros c k v R M. unfold at_rest in R. rewrite M in R.
  unfold grequest, z_request. cbn [pl abs].
  unfold place_of at 1. rewrite M.
  destruct (gst A c) eqn:Es; try contradiction.
  - destruct k; cbn [gset_st gst]; rewrite ?Es.
    + unfold gcontinue. cbn. rewrite R. split; reflexivity.
    + split; [reflexivity|exact Logic.I].
    + split; [reflexivity|exact Logic.I].
  - assert (E1 : match k with KNext => c | _ => c end = c) by (destruct k; reflexivity).
    rewrite E1, Es. unfold gcontinue. cbn [gset_recv gset_st gip].
    destruct R as [R|[R Ri]]; rewrite R.
    + unfold gyield_resume. destruct k; split; reflexivity.
    + destruct (git A c) as [it|] eqn:Ei; [|congruence].
      apply (same_star (gset_recv A (gset_st A c Exec) k v)); auto.
  - assert (E1 : match k with KNext => c | _ => c end = c) by (destruct k; reflexivity).
    rewrite E1, Es. split; [|cbn; rewrite Es; exact Logic.I].
    unfold abs, place_of. cbn. rewrite Es. reflexivity.
Qed.

Lemma same_step : forall c i,
  at_rest c -> gmd A c = Run A i -> same (gstep A c i) (z_step A (abs c) i).
Proof.
  intros c i R M. unfold at_rest in R. rewrite M in R.
  unfold gstep, z_step. cbn [sbd swd abs].
  destruct (body A (gbd A c) i (gwd A c)) as [[w b] e].
  set (c1 := gset_bd A (gset_wd A c w) b).
  destruct e as [v|v|v|t v|v|v|k v].
  - split; [reflexivity|]. left. reflexivity.
  - apply (same_do _ c1 (place_of c) (w_iter A v)); [exact R|].
    intros w1 it.
    apply (same_star (gset_it A (gset_recv A (gset_wd A c1 w1) KNext (undef A)) (Some it)) (place_of c) it); auto.
  - split; [reflexivity|exact Logic.I].
  - apply (same_run c1 (place_of c)). exact R.
  - split; [reflexivity|exact Logic.I].
  - split; [reflexivity|exact Logic.I].
  - change (gst A c1) with (gst A c). rewrite R. apply (same_run c1 (place_of c)). exact R.
Qed.

Lemma same_act : forall c a, at_rest c -> same (gact A c a) (z_act A (abs c) a).
Proof.
  intros c a R. unfold gact, z_act. cbn [pl abs].
  destruct (gmd A c) as [i| |] eqn:M.
  - unfold place_of. rewrite M. destruct a as [[k v]|]; [split; auto|apply same_step; auto].
  - assert (X : place_of c <> Wrong A /\ forall i, place_of c <> Running A i).
    { unfold place_of. rewrite M. split; [|intros i];
        destruct (gst A c); try discriminate; destruct (gip A c), (git A c); discriminate. }
    destruct a as [[k v]|].
    + pose proof (same_request c k v R M) as Q. destruct X as [X1 X2].
      destruct (place_of c) eqn:E; try exact Q; [exfalso; apply (X2 i); reflexivity|congruence].
    + destruct X as [_ X]. destruct (place_of c) eqn:E; try (split; auto; fail).
      exfalso. apply (X i). reflexivity.
  - unfold place_of. rewrite M. split; auto.
Qed.

Theorem sync_conforms : forall w l, abs (grun A (gstart A w) l) = z_run A (z_start A w) l.
Proof.
  intros w l.
  assert (H : forall l c, at_rest c -> abs (grun A c l) = z_run A (abs c) l).
  { clear. induction l as [|a l IH]; intros c R; [reflexivity|].
    unfold grun, z_run in *. cbn [fold_left].
    destruct (same_act c a R) as [E R1]. rewrite IH by exact R1. rewrite E. reflexivity. }
  rewrite H; [reflexivity|]. reflexivity.
Qed.

Theorem sync_rest : forall w l, at_rest (grun A (gstart A w) l).
Proof.
  intros w l.
  assert (H : forall l c, at_rest c -> at_rest (grun A c l)).
  { clear. induction l as [|a l IH]; intros c R; [exact R|].
    unfold grun in *. cbn [fold_left]. apply IH. apply (same_act c a R). }
  apply H. reflexivity.
Qed.

(** Without awaits the model never stops in a wrong state. *)
Theorem sync_never_bad : forall w l,
  (forall b i w, match snd (body A b i w) with EAwait _ => False | _ => True end) ->
  gmd A (grun A (gstart A w) l) <> Bad A.
Proof.
  intros w l Hb E.
  assert (X : pl A (z_run A (z_start A w) l) = Wrong A).
  { rewrite <- sync_conforms. unfold abs, place_of. cbn. rewrite E. reflexivity. }
  clear E. revert X.
  assert (Y : pl A (z_start A w) <> Wrong A) by discriminate.
  revert Y. generalize (z_start A w). unfold z_run.
  induction l as [|a l IH]; intros z Y; [exact Y|]. cbn [fold_left]. apply IH.
  assert (Do : forall (X : Type) z h (k : sgen A -> X -> sgen A),
     (forall z x, pl A (k z x) <> Wrong A) -> pl A (z_do A z h k) <> Wrong A).
  { intros X z0 h k Hk. unfold z_do. destruct (h (swd A z0)) as [w0 [x|e]]; [apply Hk|discriminate]. }
  assert (Inn : forall z it ir f, pl A (z_inner A z it ir f) <> Wrong A).
  { intros. unfold z_inner. destruct (is_object A ir); [|discriminate].
    apply Do. intros z9 [|]; [|discriminate]. apply Do. discriminate. }
  assert (St : forall z it c, pl A (z_star A z it c) <> Wrong A).
  { intros z0 it c. unfold z_star. destruct c.
    - apply Do. auto.
    - apply Do. intros z1 [m|]; apply Do; auto. intros z2 [m|]; [apply Do|]; discriminate.
    - apply Do. intros z1 [m|]; [apply Do; auto|discriminate]. }
  unfold z_act. destruct (pl A z) eqn:Ep; destruct a as [[k v]|]; try congruence.
  - unfold z_request. rewrite Ep. destruct k; discriminate.
  - unfold z_request. rewrite Ep. discriminate.
  - unfold z_request. rewrite Ep. apply St.
  - unfold z_step. specialize (Hb (sbd A z) i (swd A z)).
    destruct (body A (sbd A z) i (swd A z)) as [[w0 b] e]. cbn in Hb.
    destruct e; try discriminate; try contradiction. apply Do. auto.
  - unfold z_request. rewrite Ep. discriminate.
Qed.

(** A finished generator stays finished, and its methods do not run the body. *)
Theorem sync_finished : forall w l k v,
  let c := grun A (gstart A w) l in
  gmd A c = Idle A -> gst A c = Completed ->
  let c' := gact A c (Some (k, v)) in
  gst A c' = Completed /\ gmd A c' = Idle A /\ gwd A c' = gwd A c /\
  glog A c' = glog A c ++ [match k with
                           | KNext => Result A (undef A) true
                           | KRet => Result A v true
                           | KThrow => Thrown A v
                           end].
Proof.
  intros w l k v c M S1 c'. unfold c', gact. rewrite M. unfold grequest. rewrite S1.
  assert (E1 : match k with KNext => c | _ => c end = c) by (destruct k; reflexivity).
  rewrite E1, S1. cbn. auto.
Qed.

End Sync.
