(** Proofs about promises. *)
From Coq Require Import List ZArith Bool Arith Lia.
Import ListNotations.
From Verif Require Import PromiseModel PromiseSpec.

(** * Lists *)

Definition cnt {A} (f : A -> bool) (l : list A) : nat := length (filter f l).
Arguments cnt : simpl never.

Lemma cnt_nil : forall A (f : A -> bool), cnt f [] = 0.
Proof. reflexivity. Qed.

Lemma cnt_cons : forall A (f : A -> bool) x l, cnt f (x :: l) = (if f x then 1 else 0) + cnt f l.
Proof. intros. unfold cnt; cbn [filter]. destruct (f x); reflexivity. Qed.

Lemma cnt_app : forall A (f : A -> bool) l m, cnt f (l ++ m) = cnt f l + cnt f m.
Proof. intros. unfold cnt. rewrite filter_app, app_length. reflexivity. Qed.

Lemma cnt_upd : forall A (f : A -> bool) l i x y, nth_error l i = Some y ->
  cnt f (upd l i x) + (if f y then 1 else 0) = cnt f l + (if f x then 1 else 0).
Proof.
  induction l as [|z l IH]; intros [|i] x y H; cbn in H; try discriminate.
  - injection H as ->. cbn [upd]. rewrite !cnt_cons. lia.
  - cbn [upd]. rewrite !cnt_cons. specialize (IH i x y H). lia.
Qed.

Lemma cnt_del : forall A (f : A -> bool) l i y, nth_error l i = Some y ->
  cnt f (del l i) + (if f y then 1 else 0) = cnt f l.
Proof.
  induction l as [|z l IH]; intros [|i] y H; cbn in H; try discriminate.
  - injection H as ->. cbn [del]. rewrite !cnt_cons. lia.
  - cbn [del]. rewrite !cnt_cons. specialize (IH i y H). lia.
Qed.

Lemma nth_upd_same : forall A (l : list A) i x y, nth_error l i = Some y ->
  nth_error (upd l i x) i = Some x.
Proof. induction l as [|z l IH]; intros [|i] x y H; cbn in *; try discriminate; eauto. Qed.

Lemma nth_upd_other : forall A (l : list A) i j x, i <> j ->
  nth_error (upd l i x) j = nth_error l j.
Proof.
  induction l as [|z l IH]; intros [|i] [|j] x H; cbn in *; try reflexivity; try congruence.
  apply IH. congruence.
Qed.

Lemma nth_snoc : forall A (l : list A) x i,
  nth_error (l ++ [x]) i =
  if i =? length l then Some x else nth_error l i.
Proof.
  intros. destruct (Nat.eqb_spec i (length l)) as [->|N].
  - rewrite nth_error_app2, Nat.sub_diag by lia. reflexivity.
  - destruct (lt_dec i (length l)).
    + now rewrite nth_error_app1 by lia.
    + rewrite nth_error_app2 by lia.
      rewrite (proj2 (nth_error_None l i)) by lia.
      destruct (i - length l) as [|k] eqn:E; [lia|]. destruct k; reflexivity.
Qed.

Lemma cnt_in : forall A (f : A -> bool) l i x, nth_error l i = Some x -> f x = true ->
  1 <= cnt f l.
Proof.
  intros A f l i x H F. pose proof (cnt_del A f l i x H) as C. rewrite F in C. lia.
Qed.

(** * Histories *)

Lemma settlements_app : forall p t u, settlements p (t ++ u) = settlements p t ++ settlements p u.
Proof.
  induction t as [|e t IH]; intros; [reflexivity|].
  cbn [app]. destruct e; cbn [settlements]; rewrite ?IH; try reflexivity.
  destruct (p0 =? p); reflexivity.
Qed.

Lemma regs_app : forall p t u, regs p (t ++ u) = regs p t ++ regs p u.
Proof.
  induction t as [|e t IH]; intros; [reflexivity|].
  cbn [app]. destruct e; cbn [regs]; rewrite ?IH; try reflexivity.
  destruct (p0 =? p); reflexivity.
Qed.

Lemma started_app : forall t u, started (t ++ u) = started t ++ started u.
Proof.
  induction t as [|e t IH]; intros; [reflexivity|].
  cbn [app]. destruct e; cbn [started]; rewrite ?IH; reflexivity.
Qed.

Lemma cap_calls_app : forall n t u, cap_calls n (t ++ u) = cap_calls n t ++ cap_calls n u.
Proof.
  induction t as [|e t IH]; intros; [reflexivity|].
  cbn [app]. destruct e; cbn [cap_calls]; rewrite ?IH; try reflexivity.
  destruct (n0 =? n); reflexivity.
Qed.

Lemma due_app : forall t u past, due past (t ++ u) = due past t ++ due (past ++ t) u.
Proof.
  induction t as [|e t IH]; intros; cbn [app due]; [now rewrite app_nil_r|].
  rewrite IH, <- !app_assoc. reflexivity.
Qed.

Lemma due_snoc : forall t e, due [] (t ++ [e]) = due [] t ++ due_of t e.
Proof. intros. rewrite due_app. cbn [due app]. now rewrite app_nil_r. Qed.

(** * The invariant *)

Definition is_then (p : nat) (j : job) : bool :=
  match j with JThen q _ _ => q =? p | _ => false end.

Definition tok (s : state) (p : nat) : nat :=
  cnt (fun x : nat * bool => (fst x =? p) && negb (snd x)) (statuses s)
  + cnt (fun x : nat * val => fst x =? p) (gets s)
  + cnt (is_then p) (queue s).

Definition pend (s : state) (p : nat) : nat :=
  match nth_error (proms s) p with
  | Some x => match p_state x with Pending => 1 | _ => 0 end
  | None => 0
  end.

Definition hand (h : option nat) (p : nat) : nat :=
  match h with Some q => if q =? p then 1 else 0 | None => 0 end.

Definition mk (t : rtype) (p : nat) (g : reg) : reaction :=
  let h := match t with RFul => g_ful g | RRej => g_rej g end in
  React t (if callable h then h else VUndef) (g_cap g) p (g_num g).

Definition prom_ok (p : nat) (o : option prom) (t : list event) : Prop :=
  match o with
  | None => settlements p t = [] /\ regs p t = []
  | Some x =>
    match p_state x with
    | Pending =>
      settlements p t = [] /\ p_ful x = map (mk RFul p) (regs p t) /\
      p_rej x = map (mk RRej p) (regs p t)
    | st => settlements p t = [(st, p_result x)] /\ p_ful x = [] /\ p_rej x = []
    end
  end.

Record Inv (s : state) (h : option nat) : Prop := {
  i_tok : forall p, tok s p + hand h p = pend s p;
  i_prom : forall p, prom_ok p (nth_error (proms s) p) (trace s);
  i_due : started (trace s) ++ queue s = due [] (trace s);
  i_called : forall i,
    (exists p, nth_error (statuses s) i = Some (p, true)) <-> called i (trace s) }.

Lemma inv_init : Inv init None.
Proof.
  split; cbn; intros.
  - unfold tok, pend; cbn. destruct p; reflexivity.
  - destruct p; split; reflexivity.
  - reflexivity.
  - split; [intros [p H]; destruct i; discriminate|intros []].
Qed.

(** Events that do not concern promises, registrations or jobs. *)
Definition quiet (e : event) : bool :=
  match e with ECap _ _ _ => true | _ => false end.

Lemma quiet_inv : forall s h e, quiet e = true -> Inv s h -> Inv (emit s e) h.
Proof.
  intros s h e Q [T P D C]. destruct e; try discriminate.
  split; cbn [emit proms statuses gets queue frames nreg trace].
  - exact T.
  - intro p. specialize (P p). unfold prom_ok in *.
    rewrite settlements_app, regs_app. cbn [settlements regs]. now rewrite !app_nil_r.
  - rewrite started_app, due_snoc. cbn [started due_of]. now rewrite !app_nil_r.
  - intro i. rewrite C. unfold called. rewrite in_app_iff. cbn.
    split; [auto|intros [H|[H|[]]]; [auto|discriminate]].
Qed.

Lemma inv_frames : forall s h fr, Inv s h ->
  Inv (St (proms s) (statuses s) (gets s) (queue s) fr (nreg s) (trace s)) h.
Proof. intros s h fr [T P D C]. split; assumption. Qed.

Lemma inv_called_again : forall s h i p, Inv s h ->
  nth_error (statuses s) i = Some (p, true) -> Inv (emit s (ECalled i)) h.
Proof.
  intros s h i p [T P D C] N.
  split; cbn [emit proms statuses gets queue frames nreg trace].
  - exact T.
  - intro q. specialize (P q). unfold prom_ok in *.
    rewrite settlements_app, regs_app. cbn [settlements regs]. now rewrite !app_nil_r.
  - rewrite started_app, due_snoc. cbn [started due_of]. now rewrite !app_nil_r.
  - intro j. unfold called. rewrite in_app_iff. cbn. split.
    + intros H. left. now apply C.
    + intros [H|[H|[]]]; [now apply C|]. injection H as <-. eauto.
Qed.

Lemma inv_take : forall s i p, Inv s None ->
  nth_error (statuses s) i = Some (p, false) ->
  Inv (set_status (emit s (ECalled i)) i (p, true)) (Some p).
Proof.
  intros s i p [T P D C] N.
  split; cbn [set_status emit proms statuses gets queue frames nreg trace].
  - intro q. specialize (T q). unfold tok, pend, hand in *.
    cbn [set_status emit proms statuses gets queue frames nreg trace].
    pose proof (cnt_upd _ (fun x : nat * bool => (fst x =? q) && negb (snd x))
                  _ i (p, true) _ N) as U. cbn [fst snd negb] in U.
    rewrite andb_false_r, andb_true_r in U. lia.
  - intro q. specialize (P q). unfold prom_ok in *.
    rewrite settlements_app, regs_app. cbn [settlements regs]. now rewrite !app_nil_r.
  - rewrite started_app, due_snoc. cbn [started due_of]. now rewrite !app_nil_r.
  - intro j. unfold called. rewrite in_app_iff. cbn. split.
    + intros [q H]. destruct (Nat.eq_dec i j) as [->|E]; [auto|].
      left. apply C. rewrite nth_upd_other in H by assumption. eauto.
    + intros [H|[H|[]]].
      * apply C in H. destruct H as [q H].
        destruct (Nat.eq_dec i j) as [->|E].
        -- congruence.
        -- exists q. now rewrite nth_upd_other by assumption.
      * injection H as <-. exists p. eapply nth_upd_same; eauto.
Qed.

Lemma trigger_eq : forall l s v, trigger_promise_reactions s l v =
  St (proms s) (statuses s) (gets s) (queue s ++ map (fun r => JReact r v) l)
     (frames s) (nreg s) (trace s).
Proof.
  induction l as [|r l IH]; intros.
  - cbn. rewrite app_nil_r. destruct s; reflexivity.
  - unfold trigger_promise_reactions in *. cbn [fold_left map].
    rewrite IH. cbn [enqueue proms statuses gets queue frames nreg trace].
    rewrite <- app_assoc. reflexivity.
Qed.

Lemma inv_pending : forall s p, Inv s (Some p) ->
  exists x, nth_error (proms s) p = Some x /\ p_state x = Pending /\ tok s p = 0.
Proof.
  intros s p [T _ _ _]. specialize (T p). unfold pend, hand in T. rewrite Nat.eqb_refl in T.
  destruct (nth_error (proms s) p) as [x|]; [|lia].
  exists x. destruct (p_state x); (split; [reflexivity|]); try lia.
  split; [reflexivity|lia].
Qed.

Definition settle (s : state) (p : nat) (st : pstate) (v : val) (x : prom) : state :=
  trigger_promise_reactions
    (emit (set_prom s p (Prom st v (p_handled x) [] [])) (ESettle p st v))
    (match st with Rejected => p_rej x | _ => p_ful x end) v.

Lemma fulfill_settle : forall s p v x, nth_error (proms s) p = Some x ->
  p_state x = Pending -> fulfill_promise s p v = Ok (settle s p Fulfilled v x).
Proof. intros. unfold fulfill_promise. rewrite H, H0. reflexivity. Qed.

Lemma reject_settle : forall s p v x, nth_error (proms s) p = Some x ->
  p_state x = Pending -> reject_promise s p v = Ok (settle s p Rejected v x).
Proof. intros. unfold reject_promise. rewrite H, H0. reflexivity. Qed.

Lemma cnt_react : forall p l v, cnt (is_then p) (map (fun r => JReact r v) l) = 0.
Proof. induction l as [|r l IH]; intros; [reflexivity|]. cbn [map]. now rewrite cnt_cons, IH. Qed.

Lemma inv_settle : forall s p st v x, Inv s (Some p) ->
  nth_error (proms s) p = Some x -> p_state x = Pending -> st <> Pending ->
  Inv (settle s p st v x) None.
Proof.
  intros s p st v x [T P D C] N K S0. unfold settle. rewrite trigger_eq.
  pose proof (P p) as Pp. rewrite N in Pp. unfold prom_ok in Pp. rewrite K in Pp.
  destruct Pp as (P1 & P2 & P3).
  split; cbn [set_prom emit proms statuses gets queue frames nreg trace].
  - intro q. specialize (T q). unfold tok, pend, hand in *.
    cbn [set_prom emit proms statuses gets queue frames nreg trace].
    rewrite cnt_app, cnt_react.
    destruct (Nat.eqb_spec p q) as [E|E]; [subst q|].
    + rewrite (nth_upd_same _ _ _ _ _ N). cbn [p_state]. rewrite N, K in T.
      destruct st; try congruence; lia.
    + rewrite nth_upd_other by assumption. lia.
  - intro q. unfold prom_ok. rewrite settlements_app, regs_app. cbn [settlements regs].
    rewrite app_nil_r.
    destruct (Nat.eqb_spec p q) as [E|E]; [subst q|].
    + rewrite (nth_upd_same _ _ _ _ _ N). cbn [p_state p_ful p_rej p_result].
      rewrite P1. cbn [app]. destruct st; try congruence; auto.
    + rewrite nth_upd_other by assumption. rewrite app_nil_r. apply P.
  - rewrite started_app, due_snoc. cbn [started due_of]. rewrite app_nil_r, app_assoc, D.
    f_equal. destruct st; try congruence; rewrite ?P2, ?P3, map_map; apply map_ext;
      intros; reflexivity.
  - intro i. rewrite C. unfold called. rewrite in_app_iff. cbn.
    split; [auto|intros [H|[H|[]]]; [auto|discriminate]].
Qed.

Lemma inv_add_get : forall s p v, Inv s (Some p) -> Inv (add_get s (p, v)) None.
Proof.
  intros s p v [T P D C].
  split; cbn [add_get proms statuses gets queue frames nreg trace]; try assumption.
  intro q. specialize (T q). unfold tok, pend, hand in *.
  cbn [add_get proms statuses gets queue frames nreg trace].
  rewrite cnt_app, cnt_cons, cnt_nil. cbn [fst]. lia.
Qed.

Lemma inv_get : forall s k p v, Inv s None -> nth_error (gets s) k = Some (p, v) ->
  Inv (St (proms s) (statuses s) (del (gets s) k) (queue s) (frames s) (nreg s) (trace s))
      (Some p).
Proof.
  intros s k p v [T P D C] N.
  split; cbn [proms statuses gets queue frames nreg trace]; try assumption.
  intro q. specialize (T q). unfold tok, pend, hand in *.
  cbn [proms statuses gets queue frames nreg trace].
  pose proof (cnt_del _ (fun x : nat * val => fst x =? q) _ k _ N) as U. cbn [fst] in U. lia.
Qed.

Lemma inv_adopt : forall s p v h, Inv s (Some p) ->
  Inv (enqueue (emit s (EAdopt p v h)) (JThen p v h)) None.
Proof.
  intros s p v h [T P D C].
  split; cbn [enqueue emit proms statuses gets queue frames nreg trace].
  - intro q. specialize (T q). unfold tok, pend, hand in *.
    cbn [enqueue emit proms statuses gets queue frames nreg trace].
    rewrite cnt_app, cnt_cons, cnt_nil. cbn [is_then]. lia.
  - intro q. specialize (P q). unfold prom_ok in *.
    rewrite settlements_app, regs_app. cbn [settlements regs]. now rewrite !app_nil_r.
  - rewrite started_app, due_snoc. cbn [started due_of]. now rewrite app_nil_r, app_assoc, D.
  - intro i. rewrite C. unfold called. rewrite in_app_iff. cbn.
    split; [auto|intros [H|[H|[]]]; [auto|discriminate]].
Qed.

Lemma inv_prom_new : forall s, Inv s None ->
  Inv (fst (prom_new s)) (Some (snd (prom_new s))).
Proof.
  intros s [T P D C].
  split; cbn [prom_new fst snd proms statuses gets queue frames nreg trace]; try assumption.
  - intro q. specialize (T q). unfold tok, pend, hand in *.
    cbn [prom_new fst snd proms statuses gets queue frames nreg trace].
    rewrite nth_snoc. rewrite (Nat.eqb_sym q).
    destruct (Nat.eqb_spec (length (proms s)) q) as [E|E].
    + rewrite (proj2 (nth_error_None (proms s) q)) in T by lia. cbn [p_state]. lia.
    + lia.
  - intro q. rewrite nth_snoc. specialize (P q).
    destruct (Nat.eqb_spec q (length (proms s))) as [E|E]; [|assumption].
    rewrite (proj2 (nth_error_None (proms s) q)) in P by lia.
    destruct P as [P1 P2]. cbn [prom_ok p_state p_ful p_rej]. rewrite P2. auto.
Qed.

Lemma inv_status_new : forall s p, Inv s (Some p) -> Inv (fst (status_new s p)) None.
Proof.
  intros s p [T P D C].
  split; cbn [status_new fst snd proms statuses gets queue frames nreg trace]; try assumption.
  - intro q. specialize (T q). unfold tok, pend, hand in *.
    cbn [status_new fst snd proms statuses gets queue frames nreg trace].
    rewrite cnt_app, cnt_cons, cnt_nil. cbn [fst snd negb]. rewrite andb_true_r. lia.
  - intro i. rewrite <- C. rewrite nth_snoc.
    destruct (Nat.eqb_spec i (length (statuses s))) as [E|E]; [|reflexivity].
    rewrite (proj2 (nth_error_None (statuses s) i)) by lia.
    split; intros [q H]; discriminate.
Qed.

(** * The steps keep the invariant and fail no assertion *)

(** [o] succeeds with a state satisfying the invariant. *)
Definition good (o : out) : Prop := exists s, o = Ok s /\ Inv s None.
Definition fine (o : out) : Prop := o = Stuck \/ good o.

Lemma good_fulfill : forall s p v, Inv s (Some p) -> good (fulfill_promise s p v).
Proof.
  intros s p v I0. destruct (inv_pending _ _ I0) as (x & N & K & _).
  rewrite (fulfill_settle _ _ _ _ N K).
  eexists; split; [reflexivity|]. eapply inv_settle; eauto. discriminate.
Qed.

Lemma good_reject : forall s p v, Inv s (Some p) -> good (reject_promise s p v).
Proof.
  intros s p v I0. destruct (inv_pending _ _ I0) as (x & N & K & _).
  rewrite (reject_settle _ _ _ _ N K).
  eexists; split; [reflexivity|]. eapply inv_settle; eauto. discriminate.
Qed.

Lemma fine_resolve : forall s i v, Inv s None -> fine (promise_resolve_nf s i v).
Proof.
  intros s i v I0. unfold promise_resolve_nf.
  destruct (nth_error (statuses s) i) as [[p b]|] eqn:N; [right|left; reflexivity].
  destruct b.
  - eexists; split; [reflexivity|]. eapply inv_called_again; eauto.
  - pose proof (inv_take _ _ _ I0 N) as I1.
    destruct (same_promise v p); [now apply good_reject|].
    destruct (negb (is_object v)); [now apply good_fulfill|].
    eexists; split; [reflexivity|]. now apply inv_add_get.
Qed.

Lemma fine_reject : forall s i v, Inv s None -> fine (promise_reject_nf s i v).
Proof.
  intros s i v I0. unfold promise_reject_nf.
  destruct (nth_error (statuses s) i) as [[p b]|] eqn:N; [right|left; reflexivity].
  destruct b.
  - eexists; split; [reflexivity|]. eapply inv_called_again; eauto.
  - apply good_reject. now apply inv_take.
Qed.

Lemma fine_call : forall s f v, Inv s None -> fine (call s f v).
Proof.
  intros s f v I0. destruct f; cbn [call];
    try (right; eexists; split; [reflexivity|assumption]).
  - now apply fine_resolve.
  - now apply fine_reject.
Qed.

Lemma fine_reaction_done : forall s r ok v, Inv s None -> fine (reaction_done s r ok v).
Proof.
  intros s r ok v I0. unfold reaction_done.
  destruct (is_undef (c_promise (r_cap r))).
  - right; eexists; split; [reflexivity|assumption].
  - apply fine_call. now apply quiet_inv.
Qed.

Lemma fine_then : forall s p f r c, Inv s None -> fine (perform_promise_then s p f r c).
Proof.
  intros s p f r c I0. unfold perform_promise_then.
  destruct (nth_error (proms s) p) as [x|] eqn:N; [right|left; reflexivity].
  destruct I0 as [T P D C].
  pose proof (P p) as Pp. rewrite N in Pp. unfold prom_ok in Pp.
  assert (CC : forall i, (exists p, nth_error (statuses s) i = Some (p, true)) <->
     called i (trace s ++ [EReg (nreg s) p f r c])).
  { intro i. rewrite C. unfold called. rewrite in_app_iff. cbn.
    split; [auto|intros [H|[H|[]]]; [auto|discriminate]]. }
  destruct (p_state x) eqn:K; destruct Pp as (P1 & P2 & P3);
    (eexists; split; [reflexivity|]);
    split; cbn [set_prom enqueue emit proms statuses gets queue frames nreg trace];
    try exact CC.
  1,4,7: intro q; specialize (T q); unfold tok, pend, hand in *;
    cbn [set_prom enqueue emit proms statuses gets queue frames nreg trace];
    rewrite ?cnt_app, ?cnt_cons, ?cnt_nil; cbn [is_then];
    (destruct (Nat.eq_dec p q) as [<-|E];
     [rewrite (nth_upd_same _ _ _ _ _ N); rewrite N, K in T; cbn [p_state]; lia
     |rewrite nth_upd_other by assumption; lia]).
  1,3,5: intro q; unfold prom_ok; rewrite settlements_app, regs_app; cbn [settlements regs];
    rewrite app_nil_r;
    (destruct (Nat.eqb_spec p q) as [<-|E];
     [rewrite (nth_upd_same _ _ _ _ _ N); cbn [p_state p_ful p_rej p_result];
      rewrite ?map_app, ?P2, ?P3; auto
     |rewrite nth_upd_other by assumption; rewrite app_nil_r; apply P]).
  1,2,3: rewrite started_app, due_snoc; cbn [started due_of]; rewrite P1;
    rewrite ?app_nil_r, ?app_assoc; rewrite ?D; reflexivity.
Qed.

Lemma inv_job : forall s j q, Inv s None -> queue s = j :: q ->
  Inv (St (proms s) (statuses s) (gets s) q (frames s) (nreg s) (trace s ++ [ERun j]))
      (match j with JThen p _ _ => Some p | _ => None end).
Proof.
  intros s j q [T P D C] Q.
  split; cbn [proms statuses gets queue frames nreg trace].
  - intro p. specialize (T p). unfold tok, pend, hand in *.
    cbn [proms statuses gets queue frames nreg trace].
    rewrite Q, cnt_cons in T. destruct j; cbn [is_then] in T; lia.
  - intro p. specialize (P p). unfold prom_ok in *.
    rewrite settlements_app, regs_app. cbn [settlements regs]. now rewrite !app_nil_r.
  - rewrite started_app, due_snoc. cbn [started due_of]. rewrite app_nil_r, <- D, Q.
    rewrite <- app_assoc. reflexivity.
  - intro i. rewrite C. unfold called. rewrite in_app_iff. cbn.
    split; [auto|intros [H|[H|[]]]; [auto|discriminate]].
Qed.

Lemma step_fine : forall s a, Inv s None -> fine (step s a).
Proof.
  intros s a I0. destruct a; cbn [step].
  - pose proof (inv_prom_new _ I0) as I1. destruct (prom_new s) as [s1 p] eqn:E1.
    cbn [fst snd] in I1. pose proof (inv_status_new _ _ I1) as I2.
    destruct (status_new s1 p) as [s2 i] eqn:E2. cbn [fst] in I2.
    right. eexists; split; [reflexivity|]. now apply inv_frames.
  - now apply fine_resolve.
  - now apply fine_reject.
  - destruct (nth_error (gets s) k) as [[p v]|] eqn:N; [|left; reflexivity].
    pose proof (inv_get _ _ _ _ I0 N) as I1. right. unfold resolve_got.
    destruct g; [now apply good_reject|].
    destruct (negb (callable v0)); [now apply good_fulfill|].
    eexists; split; [reflexivity|]. now apply inv_adopt.
  - now apply fine_then.
  - pose proof (inv_prom_new _ I0) as I1. destruct (prom_new s) as [s1 q] eqn:E1.
    cbn [fst snd] in I1. pose proof (inv_status_new _ _ I1) as I2.
    destruct (status_new s1 q) as [s2 i] eqn:E2. cbn [fst] in I2.
    now apply fine_then.
  - destruct (queue s) as [|j q] eqn:Q; [left; reflexivity|].
    pose proof (inv_job _ _ _ I0 Q) as I1. destruct j as [p t h|r arg].
    + unfold promise_then_job.
      pose proof (inv_status_new _ _ I1) as I2.
      destruct (status_new _ p) as [s2 i] eqn:E2. cbn [fst] in I2.
      apply fine_call. now apply inv_frames.
    + unfold promise_reaction_job. destruct (is_undef (r_handler r)).
      * now apply fine_reaction_done.
      * apply fine_call. now apply inv_frames.
  - destruct (nth_error (frames s) k) as [f|] eqn:N; [|left; reflexivity].
    pose proof (inv_frames _ _ (del (frames s) k) I0) as I1.
    unfold return_to. destruct f, o;
      try (now apply fine_reject); try (now apply fine_reaction_done);
      (right; eexists; split; [reflexivity|exact I1]).
Qed.

Lemma run_fine : forall l s, Inv s None -> fine (run s l).
Proof.
  induction l as [|a l IH]; intros s I0; cbn [run].
  - right. eexists; split; [reflexivity|assumption].
  - destruct (step_fine s a I0) as [->|(s' & -> & I1)]; cbn [bind]; [left; reflexivity|auto].
Qed.

Lemma run_inv : forall l s s', Inv s None -> run s l = Ok s' -> Inv s' None.
Proof.
  intros l s s' I0 R. destruct (run_fine l s I0) as [E|(x & E & I1)]; congruence.
Qed.

Lemma run_no_assert : forall l, run init l <> AssertFail.
Proof. intros l H. destruct (run_fine l init inv_init) as [E|(x & E & _)]; congruence. Qed.

Lemma run_app : forall l m s, run s (l ++ m) = bind (run s l) (fun s => run s m).
Proof.
  induction l as [|a l IH]; intros; cbn [app run]; [reflexivity|].
  destruct (step s a); cbn [bind]; auto.
Qed.

(** * Histories only grow *)

Definition ext (s : state) (o : out) : Prop :=
  forall s', o = Ok s' -> exists e, trace s' = trace s ++ e.

Lemma ext_same : forall s s', trace s' = trace s -> ext s (Ok s').
Proof. intros s s' H x [= <-]. exists []. now rewrite app_nil_r. Qed.

Lemma ext_add : forall s s0 e o, trace s0 = trace s ++ e -> ext s0 o -> ext s o.
Proof.
  intros s s0 e o H X s' E. destruct (X s' E) as [e' ->]. rewrite H, <- app_assoc. eauto.
Qed.

Lemma ext_fulfill : forall s p v, ext s (fulfill_promise s p v).
Proof.
  intros s p v s' E. unfold fulfill_promise in E.
  destruct (nth_error (proms s) p) as [x|]; [|discriminate].
  destruct (p_state x); try discriminate. rewrite trigger_eq in E.
  injection E as <-. cbn. eauto.
Qed.

Lemma ext_reject : forall s p v, ext s (reject_promise s p v).
Proof.
  intros s p v s' E. unfold reject_promise in E.
  destruct (nth_error (proms s) p) as [x|]; [|discriminate].
  destruct (p_state x); try discriminate. rewrite trigger_eq in E.
  injection E as <-. cbn. eauto.
Qed.

Lemma ext_call : forall s f v, ext s (call s f v).
Proof.
  intros s f v. destruct f; cbn [call]; try (apply ext_same; reflexivity).
  - unfold promise_resolve_nf. destruct (nth_error (statuses s) s0) as [[p b]|];
      [|intros ? ?; discriminate].
    eapply ext_add with (s0 := emit s (ECalled s0)); [reflexivity|].
    destruct b; [apply ext_same; reflexivity|].
    destruct (same_promise v p);
      [eapply ext_add with (e := []); [|apply ext_reject]; symmetry; apply app_nil_r|].
    destruct (negb (is_object v));
      [eapply ext_add with (e := []); [|apply ext_fulfill]; symmetry; apply app_nil_r|].
    apply ext_same. reflexivity.
  - unfold promise_reject_nf. destruct (nth_error (statuses s) s0) as [[p b]|];
      [|intros ? ?; discriminate].
    eapply ext_add with (s0 := emit s (ECalled s0)); [reflexivity|].
    destruct b; [apply ext_same; reflexivity|].
    eapply ext_add with (e := []); [|apply ext_reject]. symmetry; apply app_nil_r.
Qed.

Lemma ext_reaction_done : forall s r ok v, ext s (reaction_done s r ok v).
Proof.
  intros. unfold reaction_done. destruct (is_undef (c_promise (r_cap r))).
  - apply ext_same; reflexivity.
  - eapply ext_add; [|apply ext_call]. reflexivity.
Qed.

Lemma ext_then : forall s p f r c, ext s (perform_promise_then s p f r c).
Proof.
  intros s p f r c s' E. unfold perform_promise_then in E.
  destruct (nth_error (proms s) p) as [x|]; [|discriminate].
  destruct (p_state x); injection E as <-; cbn; eauto.
Qed.

Lemma ext_step : forall s a, ext s (step s a).
Proof.
  intros s a. destruct a; cbn [step].
  - apply ext_same. reflexivity.
  - exact (ext_call s (VRes i) v).
  - exact (ext_call s (VRej i) v).
  - destruct (nth_error (gets s) k) as [[p v]|]; [|intros ? ?; discriminate].
    unfold resolve_got. destruct g.
    + eapply ext_add with (e := []); [|apply ext_reject]. symmetry; apply app_nil_r.
    + destruct (negb (callable v0)).
      * eapply ext_add with (e := []); [|apply ext_fulfill]. symmetry; apply app_nil_r.
      * intros ? [= <-]. cbn. eauto.
  - apply ext_then.
  - cbn. eapply ext_add with (e := []); [|apply ext_then]. symmetry; apply app_nil_r.
  - destruct (queue s) as [|j q]; [intros ? ?; discriminate|].
    destruct j as [p t h|r arg].
    + unfold promise_then_job. cbn [status_new].
      eapply ext_add with (e := [ERun (JThen p t h)]); [|apply ext_call]. reflexivity.
    + unfold promise_reaction_job. destruct (is_undef (r_handler r)).
      * eapply ext_add with (e := [ERun (JReact r arg)]); [|apply ext_reaction_done].
        reflexivity.
      * eapply ext_add with (e := [ERun (JReact r arg)]); [|apply ext_call]. reflexivity.
  - destruct (nth_error (frames s) k) as [f|]; [|intros ? ?; discriminate].
    unfold return_to. destruct f, o;
      try (apply ext_same; reflexivity).
    1,2: eapply ext_add with (e := []); [|exact (ext_call _ (VRej s0) e)];
         symmetry; apply app_nil_r.
    1,2: eapply ext_add with (e := []); [|apply ext_reaction_done];
         symmetry; apply app_nil_r.
Qed.

Lemma ext_run : forall l s, ext s (run s l).
Proof.
  induction l as [|a l IH]; intros s; cbn [run].
  - apply ext_same; reflexivity.
  - intros s' E. destruct (step s a) as [s1| |] eqn:E1; cbn [bind] in E; try discriminate.
    destruct (ext_step s a s1 E1) as [e1 H1]. destruct (IH s1 s' E) as [e2 H2].
    exists (e1 ++ e2). now rewrite H2, H1, app_assoc.
Qed.

(** * C18 *)

Lemma outcome_settlements : forall s p, Inv s None ->
  settlements p (trace s) = match outcome s p with Some o => [o] | None => [] end.
Proof.
  intros s p [T P D C]. specialize (P p). unfold outcome.
  destruct (nth_error (proms s) p) as [x|]; cbn [prom_ok] in P.
  - destruct (p_state x); now destruct P as (P1 & _).
  - now destruct P.
Qed.

Lemma settled_once : forall l s p, run init l = Ok s ->
  settlements p (trace s) = match outcome s p with Some o => [o] | None => [] end.
Proof. intros. apply outcome_settlements. eapply run_inv; eauto. apply inv_init. Qed.

Lemma settled_stays : forall l m s s' p o, run init l = Ok s -> run s m = Ok s' ->
  outcome s p = Some o -> outcome s' p = Some o.
Proof.
  intros l m s s' p o R1 R2 O.
  pose proof (run_inv _ _ _ inv_init R1) as I1.
  pose proof (run_inv _ _ _ I1 R2) as I2.
  destruct (ext_run _ _ _ R2) as [e E].
  pose proof (outcome_settlements s p I1) as S1.
  pose proof (outcome_settlements s' p I2) as S2.
  rewrite E, settlements_app, S1, O in S2. cbn [app] in S2.
  destruct (outcome s' p); [|discriminate]. injection S2 as ->. reflexivity.
Qed.

(** A call of a function of a pair that was called before changes nothing. *)
Definition same_promises (s s' : state) : Prop :=
  proms s' = proms s /\ statuses s' = statuses s /\ gets s' = gets s /\
  queue s' = queue s /\ frames s' = frames s.

Lemma called_again : forall l s s' i a v, run init l = Ok s -> called i (trace s) ->
  a = AResolve i v \/ a = AReject i v -> step s a = Ok s' -> same_promises s s'.
Proof.
  intros l s s' i a v R C A E. pose proof (run_inv _ _ _ inv_init R) as [_ _ _ K].
  apply K in C. destruct C as [p N].
  destruct A; subst a; cbn [step] in E;
    [unfold promise_resolve_nf in E|unfold promise_reject_nf in E];
    rewrite N in E; injection E as <-; repeat split; reflexivity.
Qed.

Lemma uncalled : forall s i p b, Inv s None -> nth_error (statuses s) i = Some (p, b) ->
  ~ called i (trace s) ->
  b = false /\ exists x, nth_error (proms s) p = Some x /\ p_state x = Pending.
Proof.
  intros s i p b I0 N C. destruct b.
  - exfalso. apply C. apply (i_called _ _ I0). eauto.
  - split; [reflexivity|].
    destruct (inv_pending _ _ (inv_take _ _ _ I0 N)) as (x & H & K & _). eauto.
Qed.

Lemma settle_outcome : forall s p st v x, nth_error (proms s) p = Some x -> st <> Pending ->
  outcome (settle s p st v x) p = Some (st, v).
Proof.
  intros. unfold settle. rewrite trigger_eq. unfold outcome. cbn.
  erewrite nth_upd_same by eassumption. cbn. destruct st; congruence.
Qed.

(** The first call decides. *)
Lemma first_call : forall l s i p b a v, run init l = Ok s ->
  nth_error (statuses s) i = Some (p, b) -> ~ called i (trace s) ->
  outcome s p = None /\
  (a = AReject i v -> exists s', step s a = Ok s' /\ outcome s' p = Some (Rejected, v)) /\
  (a = AResolve i v -> is_object v = false ->
     exists s', step s a = Ok s' /\ outcome s' p = Some (Fulfilled, v)) /\
  (a = AResolve i v -> v = VProm p ->
     exists s', step s a = Ok s' /\ outcome s' p = Some (Rejected, VTypeErr)) /\
  (a = AResolve i v -> is_object v = true -> v <> VProm p ->
     exists s', step s a = Ok s' /\ outcome s' p = None /\
       gets s' = gets s ++ [(p, v)] /\ queue s' = queue s).
Proof.
  intros l s i p b a v R N C. pose proof (run_inv _ _ _ inv_init R) as I0.
  destruct (uncalled _ _ _ _ I0 N C) as (-> & x & Nx & K).
  split; [unfold outcome; now rewrite Nx, K|]. split; [|split; [|split]].
  - intros ->. cbn [step]. unfold promise_reject_nf. rewrite N.
    erewrite reject_settle; [|exact Nx|exact K].
    eexists; split; [reflexivity|]. now apply settle_outcome.
  - intros -> O. cbn [step]. unfold promise_resolve_nf. rewrite N.
    replace (same_promise v p) with false by (destruct v; try reflexivity; discriminate).
    rewrite O. cbn [negb].
    erewrite fulfill_settle; [|exact Nx|exact K].
    eexists; split; [reflexivity|]. now apply settle_outcome.
  - intros -> ->. cbn [step]. unfold promise_resolve_nf. rewrite N.
    cbn [same_promise]. rewrite Nat.eqb_refl.
    erewrite reject_settle; [|exact Nx|exact K].
    eexists; split; [reflexivity|]. now apply settle_outcome.
  - intros -> O V. cbn [step]. unfold promise_resolve_nf. rewrite N.
    replace (same_promise v p) with false.
    2:{ destruct v; try reflexivity. cbn. symmetry. apply Nat.eqb_neq. congruence. }
    rewrite O. cbn [negb]. eexists; split; [reflexivity|].
    unfold outcome. cbn. rewrite Nx, K. auto.
Qed.

(** What the answer to the [[Get]] of "then" does. *)
Lemma get_answer : forall l s k p v, run init l = Ok s ->
  nth_error (gets s) k = Some (p, v) ->
  outcome s p = None /\
  (forall e, exists s', step s (AGet k (GThrow e)) = Ok s' /\
     outcome s' p = Some (Rejected, e)) /\
  (forall h, callable h = false -> exists s', step s (AGet k (GValue h)) = Ok s' /\
     outcome s' p = Some (Fulfilled, v)) /\
  (forall h, callable h = true -> exists s', step s (AGet k (GValue h)) = Ok s' /\
     outcome s' p = None /\ queue s' = queue s ++ [JThen p v h]).
Proof.
  intros l s k p v R N. pose proof (run_inv _ _ _ inv_init R) as I0.
  pose proof (inv_get _ _ _ _ I0 N) as I1.
  destruct (inv_pending _ _ I1) as (x & Nx & K & _).
  pose proof Nx as Nx'. cbn [proms] in Nx.
  split; [unfold outcome; now rewrite Nx, K|]. split; [|split].
  - intro e. cbn [step]. rewrite N. cbn [resolve_got].
    erewrite reject_settle; [|exact Nx'|exact K].
    eexists; split; [reflexivity|]. now apply settle_outcome.
  - intros h H. cbn [step]. rewrite N. cbn [resolve_got]. rewrite H. cbn [negb].
    erewrite fulfill_settle; [|exact Nx'|exact K].
    eexists; split; [reflexivity|]. now apply settle_outcome.
  - intros h H. cbn [step]. rewrite N. cbn [resolve_got]. rewrite H. cbn [negb].
    eexists; split; [reflexivity|]. unfold outcome. cbn. rewrite Nx, K. auto.
Qed.

(** * C19 *)

Lemma jobs_due : forall l s, run init l = Ok s ->
  started (trace s) ++ queue s = due [] (trace s).
Proof. intros. eapply i_due. eapply run_inv; eauto. apply inv_init. Qed.

Lemma of_prom_due : forall p q g st v, of_prom p (due_job q g st v) = (q =? p).
Proof. intros. destruct st; reflexivity. Qed.

Lemma filter_due_map : forall p q l st v,
  filter (of_prom p) (map (fun g => due_job q g st v) l) =
  if q =? p then map (fun g => due_job q g st v) l else [].
Proof.
  induction l as [|g l IH]; intros; cbn [map filter].
  - destruct (q =? p); reflexivity.
  - rewrite of_prom_due, IH. destruct (q =? p); reflexivity.
Qed.

Lemma due_of_promise : forall p t,
  (settlements p t = [] -> filter (of_prom p) (due [] t) = []) /\
  (forall st v, settlements p t = [(st, v)] ->
     filter (of_prom p) (due [] t) = map (fun g => due_job p g st v) (regs p t)).
Proof.
  intros p t. induction t as [|e t [IH1 IH2]] using rev_ind; [split; [reflexivity|discriminate]|].
  assert (Plain : settlements p [e] = [] -> regs p [e] = [] ->
    filter (of_prom p) (due_of t e) = [] ->
    (settlements p (t ++ [e]) = [] -> filter (of_prom p) (due [] (t ++ [e])) = []) /\
    (forall st v, settlements p (t ++ [e]) = [(st, v)] ->
     filter (of_prom p) (due [] (t ++ [e])) =
     map (fun g => due_job p g st v) (regs p (t ++ [e])))).
  { intros A B C. rewrite settlements_app, regs_app, due_snoc, filter_app, A, B, C, !app_nil_r.
    split; assumption. }
  destruct e; try (apply Plain; reflexivity).
  - destruct (Nat.eqb_spec p0 p) as [->|E].
    + split.
      * intros H. rewrite settlements_app in H. apply app_eq_nil in H. destruct H as [H _].
        rewrite due_snoc, filter_app, (IH1 H). cbn [due_of]. rewrite H. reflexivity.
      * intros st v H. rewrite settlements_app in H. cbn [settlements] in H.
        rewrite app_nil_r in H.
        rewrite due_snoc, filter_app, (IH2 _ _ H), regs_app, map_app. f_equal.
        cbn [due_of regs]. rewrite H, Nat.eqb_refl. cbn [filter map].
        now rewrite of_prom_due, Nat.eqb_refl.
    + apply Nat.eqb_neq in E. apply Plain; [reflexivity|cbn; now rewrite E|].
      cbn [due_of]. destruct (settlements p0 t) as [|[st v] rest]; [reflexivity|].
      cbn [filter]. now rewrite of_prom_due, E.
  - destruct (Nat.eqb_spec p0 p) as [->|E].
    + split.
      * intros H. rewrite settlements_app in H. apply app_eq_nil in H. destruct H as [_ H].
        cbn [settlements] in H. rewrite Nat.eqb_refl in H. discriminate.
      * intros st' v' H. rewrite settlements_app in H. cbn [settlements] in H.
        rewrite Nat.eqb_refl in H.
        destruct (settlements p t) as [|x rest] eqn:S1.
        -- cbn [app] in H. injection H as <- <-.
           rewrite due_snoc, filter_app, (IH1 eq_refl), regs_app. cbn [due_of regs app].
           rewrite filter_due_map, Nat.eqb_refl, app_nil_r. reflexivity.
        -- apply (f_equal (@length _)) in H. rewrite app_length in H. cbn in H. lia.
    + apply Nat.eqb_neq in E. apply Plain; [cbn; now rewrite E|reflexivity|].
      cbn [due_of]. now rewrite filter_due_map, E.
Qed.

Lemma promise_jobs : forall l s p, run init l = Ok s ->
  filter (of_prom p) (started (trace s) ++ queue s) =
  match outcome s p with
  | None => []
  | Some (st, v) => map (fun g => due_job p g st v) (regs p (trace s))
  end.
Proof.
  intros l s p R. rewrite (jobs_due _ _ R).
  destruct (due_of_promise p (trace s)) as [H1 H2].
  pose proof (settled_once _ _ p R) as H. destruct (outcome s p) as [[st v]|]; auto.
Qed.

(** What a call inside the engine leaves alone. *)
Fixpoint reg_nums (t : list event) : list nat :=
  match t with
  | [] => []
  | EReg n _ _ _ _ :: t => n :: reg_nums t
  | _ :: t => reg_nums t
  end.

Lemma reg_nums_app : forall t u, reg_nums (t ++ u) = reg_nums t ++ reg_nums u.
Proof.
  induction t as [|e t IH]; intros; [reflexivity|].
  cbn [app]. destruct e; cbn [reg_nums]; rewrite ?IH; reflexivity.
Qed.

Definition keeps (s : state) (o : out) : Prop :=
  forall s', o = Ok s' ->
    frames s' = frames s /\ (forall n, cap_calls n (trace s') = cap_calls n (trace s)) /\
    started (trace s') = started (trace s) /\ nreg s' = nreg s /\
    reg_nums (trace s') = reg_nums (trace s).

Ltac keeping :=
  cbn; repeat split; intros;
  rewrite ?cap_calls_app, ?started_app, ?reg_nums_app; cbn; rewrite ?app_nil_r; reflexivity.

Lemma keeps_refl : forall s, keeps s (Ok s).
Proof. intros s s' [= <-]. repeat split. Qed.

Lemma keeps_trans : forall s s0 o, keeps s (Ok s0) -> keeps s0 o -> keeps s o.
Proof.
  intros s s0 o K1 K2 s' E. destruct (K1 _ eq_refl) as (A1 & A2 & A3 & A4 & A5).
  destruct (K2 _ E) as (B1 & B2 & B3 & B4 & B5).
  repeat split; try congruence.
Qed.

Lemma keeps_fulfill : forall s p v, keeps s (fulfill_promise s p v).
Proof.
  intros s p v s' E. unfold fulfill_promise in E.
  destruct (nth_error (proms s) p) as [x|]; [|discriminate].
  destruct (p_state x); try discriminate. rewrite trigger_eq in E. injection E as <-. keeping.
Qed.

Lemma keeps_reject : forall s p v, keeps s (reject_promise s p v).
Proof.
  intros s p v s' E. unfold reject_promise in E.
  destruct (nth_error (proms s) p) as [x|]; [|discriminate].
  destruct (p_state x); try discriminate. rewrite trigger_eq in E. injection E as <-. keeping.
Qed.

Lemma keeps_call : forall s f v, keeps s (call s f v).
Proof.
  intros s f v. destruct f; cbn [call]; try apply keeps_refl.
  - unfold promise_resolve_nf. destruct (nth_error (statuses s) s0) as [[p b]|];
      [|intros ? ?; discriminate].
    eapply keeps_trans with (s0 := emit s (ECalled s0)); [intros ? [= <-]; keeping|].
    destruct b; [apply keeps_refl|].
    eapply keeps_trans with (s0 := set_status (emit s (ECalled s0)) s0 (p, true));
      [intros ? [= <-]; keeping|].
    destruct (same_promise v p); [apply keeps_reject|].
    destruct (negb (is_object v)); [apply keeps_fulfill|].
    intros ? [= <-]; keeping.
  - unfold promise_reject_nf. destruct (nth_error (statuses s) s0) as [[p b]|];
      [|intros ? ?; discriminate].
    eapply keeps_trans with (s0 := emit s (ECalled s0)); [intros ? [= <-]; keeping|].
    destruct b; [apply keeps_refl|].
    eapply keeps_trans with (s0 := set_status (emit s (ECalled s0)) s0 (p, true));
      [intros ? [= <-]; keeping|].
    apply keeps_reject.
Qed.

(** The numbers of the registrations, and the calls of the capabilities. *)
Definition has_cap (r : reaction) : bool := negb (is_undef (c_promise (r_cap r))).
Definition cap_job (n : nat) (j : job) : bool :=
  match j with JReact r _ => (r_reg r =? n) && has_cap r | _ => false end.
Definition cap_frame (n : nat) (f : frame) : bool :=
  match f with FReact r => (r_reg r =? n) && has_cap r | _ => false end.

Record Inv2 (s : state) : Prop := {
  i_nums : reg_nums (trace s) = seq 0 (nreg s);
  i_caps : forall n, length (cap_calls n (trace s)) + cnt (cap_frame n) (frames s) =
                     cnt (cap_job n) (started (trace s)) }.

Lemma inv2_init : Inv2 init.
Proof. split; reflexivity. Qed.

Lemma inv2_keeps : forall s o s', keeps s o -> o = Ok s' -> Inv2 s -> Inv2 s'.
Proof.
  intros s o s' K E [N C]. destruct (K _ E) as (A1 & A2 & A3 & A4 & A5).
  split.
  - now rewrite A5, A4.
  - intro n. now rewrite A1, A2, A3.
Qed.

Lemma reaction_done_caps : forall s r ok v s', reaction_done s r ok v = Ok s' ->
  frames s' = frames s /\ started (trace s') = started (trace s) /\ nreg s' = nreg s /\
  reg_nums (trace s') = reg_nums (trace s) /\
  forall n, cap_calls n (trace s') = cap_calls n (trace s) ++
    (if (r_reg r =? n) && has_cap r
     then [(if ok then c_resolve (r_cap r) else c_reject (r_cap r), v)] else []).
Proof.
  intros s r ok v s' E. unfold reaction_done in E. unfold has_cap.
  destruct (is_undef (c_promise (r_cap r))) eqn:U.
  - injection E as <-. repeat split. intro n. rewrite andb_false_r, app_nil_r. reflexivity.
  - destruct (keeps_call _ _ _ _ E) as (A1 & A2 & A3 & A4 & A5).
    rewrite A1, A3, A4, A5. cbn [emit frames nreg trace].
    rewrite started_app, reg_nums_app. cbn [started reg_nums]. rewrite !app_nil_r.
    repeat split. intro n. rewrite A2. cbn [emit trace]. rewrite cap_calls_app.
    cbn [cap_calls negb]. rewrite andb_true_r. reflexivity.
Qed.

Lemma inv2_then : forall s p f r c s', Inv2 s -> perform_promise_then s p f r c = Ok s' ->
  Inv2 s'.
Proof.
  intros s p f r c s' [N C] E. unfold perform_promise_then in E.
  destruct (nth_error (proms s) p) as [x|]; [|discriminate].
  destruct (p_state x); injection E as <-;
    (split;
     [cbn [set_prom enqueue nreg trace]; rewrite reg_nums_app, N; cbn [reg_nums];
      rewrite seq_S; reflexivity
     |intro n; cbn; rewrite cap_calls_app, started_app; cbn; rewrite !app_nil_r; apply C]).
Qed.

Lemma inv2_step : forall s a s', Inv2 s -> step s a = Ok s' -> Inv2 s'.
Proof.
  intros s a s' I0 E. destruct a; cbn [step] in E.
  - injection E as <-. destruct I0 as [N C]. split; [exact N|].
    intro n. cbn. rewrite cnt_app, cnt_cons, cnt_nil. cbn [cap_frame].
    rewrite Nat.add_0_r. apply C.
  - exact (inv2_keeps _ _ _ (keeps_call s (VRes i) v) E I0).
  - exact (inv2_keeps _ _ _ (keeps_call s (VRej i) v) E I0).
  - destruct (nth_error (gets s) k) as [[p v]|]; [|discriminate].
    refine (inv2_keeps _ _ _ _ E I0). unfold resolve_got. destruct g.
    + eapply keeps_trans; [|apply keeps_reject]. intros ? [= <-]; keeping.
    + destruct (negb (callable v0)).
      * eapply keeps_trans; [|apply keeps_fulfill]. intros ? [= <-]; keeping.
      * intros ? [= <-]; keeping.
  - eapply inv2_then; eauto.
  - eapply inv2_then; [|exact E]. destruct I0 as [N C]; split; assumption.
  - destruct (queue s) as [|j q]; [discriminate|]. destruct I0 as [N C].
    destruct j as [p t h|r arg].
    + unfold promise_then_job in E. cbn [status_new] in E.
      refine (inv2_keeps _ _ _ (keeps_call _ _ _) E _).
      split; cbn.
      * rewrite reg_nums_app. cbn. now rewrite app_nil_r.
      * intro n. rewrite cap_calls_app, started_app, !cnt_app, cnt_cons, cnt_nil. cbn.
        rewrite app_nil_r, cnt_cons, cnt_nil. cbn. specialize (C n). lia.
    + unfold promise_reaction_job in E. destruct (is_undef (r_handler r)).
      * destruct (reaction_done_caps _ _ _ _ _ E) as (A1 & A2 & A3 & A4 & A5).
        cbn [frames nreg trace] in *.
        split.
        -- rewrite A4, A3, reg_nums_app. cbn. now rewrite app_nil_r.
        -- intro n. rewrite A1, A2, A5. specialize (C n).
           rewrite cap_calls_app, started_app, !app_length, cnt_app. cbn.
           rewrite cnt_cons, cnt_nil. cbn [cap_job].
           destruct ((r_reg r =? n) && has_cap r); cbn [length]; lia.
      * refine (inv2_keeps _ _ _ (keeps_call _ _ _) E _).
        split; cbn.
        -- rewrite reg_nums_app. cbn. now rewrite app_nil_r.
        -- intro n. rewrite cap_calls_app, started_app, !cnt_app. cbn.
           rewrite app_nil_r, !cnt_cons, !cnt_nil. cbn [cap_job cap_frame].
           specialize (C n). lia.
  - destruct (nth_error (frames s) k) as [f|] eqn:Nf; [|discriminate].
    destruct I0 as [N C].
    assert (J : forall n, cnt (cap_frame n) (del (frames s) k) +
                  (if cap_frame n f then 1 else 0) = cnt (cap_frame n) (frames s))
      by (intro n; now apply cnt_del).
    unfold return_to in E.
    assert (Plain : (forall n, cap_frame n f = false) ->
       Inv2 (St (proms s) (statuses s) (gets s) (queue s) (del (frames s) k) (nreg s) (trace s))).
    { intros Z0. split; [exact N|]. intro n. cbn. specialize (J n). specialize (C n).
      rewrite Z0 in J. lia. }
    assert (React0 : forall r ok v, f = FReact r ->
       reaction_done (St (proms s) (statuses s) (gets s) (queue s) (del (frames s) k)
         (nreg s) (trace s)) r ok v = Ok s' -> Inv2 s').
    { intros r ok v -> E1. destruct (reaction_done_caps _ _ _ _ _ E1) as (A1 & A2 & A3 & A4 & A5).
      cbn [frames nreg trace] in *. split.
      - now rewrite A4, A3.
      - intro n. rewrite A1, A2, A5. specialize (J n). specialize (C n). cbn [cap_frame] in J.
        rewrite app_length. destruct ((r_reg r =? n) && has_cap r); cbn [length]; lia. }
    destruct f, o.
    1,3: injection E as <-; apply Plain; reflexivity.
    1,2: exact (inv2_keeps _ _ _ (keeps_call _ (VRej s0) e) E (Plain (fun _ => eq_refl))).
    1,2: eapply React0; [reflexivity|exact E].
Qed.

Lemma inv2_run : forall l s s', Inv2 s -> run s l = Ok s' -> Inv2 s'.
Proof.
  induction l as [|a l IH]; intros s s' I0 E; cbn [run] in E.
  - injection E as <-. assumption.
  - destruct (step s a) as [s1| |] eqn:E1; cbn [bind] in E; try discriminate.
    eapply IH; [|exact E]. eapply inv2_step; eauto.
Qed.

(** Registration numbers tell the registrations apart. *)
Lemma reg_num_in : forall t p g, In g (regs p t) -> In (g_num g) (reg_nums t).
Proof.
  induction t as [|e t IH]; intros p g H; [destruct H|].
  destruct e; cbn [regs reg_nums] in *; try (now apply (IH p)).
  destruct (p0 =? p).
  - destruct H as [<-|H]; [left; reflexivity|right; now apply (IH p)].
  - right. now apply (IH p).
Qed.

Lemma regs_nodup : forall t p, NoDup (reg_nums t) -> NoDup (map g_num (regs p t)).
Proof.
  induction t as [|e t IH]; intros p H; [constructor|].
  destruct e; cbn [regs reg_nums] in *; try (now apply IH).
  inversion H; subst. destruct (p0 =? p); [|now apply IH].
  cbn [map g_num]. constructor; [|now apply IH].
  intros K. apply in_map_iff in K. destruct K as (g & <- & G). apply H2.
  eapply reg_num_in; eauto.
Qed.

Lemma same_reg : forall t p q g h, NoDup (reg_nums t) -> In g (regs p t) -> In h (regs q t) ->
  g_num g = g_num h -> p = q /\ g = h.
Proof.
  induction t as [|e t IH]; intros p q g h D H1 H2 E; [destruct H1|].
  destruct e; cbn [regs reg_nums] in *; try (now apply (IH p q g h)).
  inversion D; subst.
  destruct (Nat.eqb_spec p0 p), (Nat.eqb_spec p0 q); cbn [In] in *.
  - destruct H1 as [<-|H1], H2 as [<-|H2]; cbn [g_num] in *.
    + split; congruence.
    + exfalso. apply H3. rewrite E. eapply reg_num_in; eauto.
    + exfalso. apply H3. rewrite <- E. eapply reg_num_in; eauto.
    + now apply (IH p q g h).
  - destruct H1 as [<-|H1]; cbn [g_num] in *.
    + exfalso. apply H3. rewrite E. eapply reg_num_in; eauto.
    + now apply (IH p q g h).
  - destruct H2 as [<-|H2]; cbn [g_num] in *.
    + exfalso. apply H3. rewrite <- E. eapply reg_num_in; eauto.
    + now apply (IH p q g h).
  - now apply (IH p q g h).
Qed.

Lemma in_regs : forall t n p f r c, In (EReg n p f r c) t <-> In (Reg n f r c) (regs p t).
Proof.
  induction t as [|e t IH]; intros; [reflexivity|].
  cbn [In]. rewrite IH. destruct e; cbn [regs];
    try (split; [intros [H|H]; [discriminate|assumption]|auto]).
  destruct (Nat.eqb_spec p0 p) as [->|E]; cbn [In].
  - split; (intros [H|H]; [left; congruence|auto]).
  - split; [intros [H|H]; [congruence|assumption]|auto].
Qed.

Lemma due_src : forall t j n, In j (due [] t) -> of_reg n j = true ->
  exists p g, of_prom p j = true /\ In g (regs p t) /\ g_num g = n.
Proof.
  intros t j n. induction t as [|e t IH] using rev_ind; intros H O; [destruct H|].
  rewrite due_snoc in H. apply in_app_or in H. destruct H as [H|H].
  - destruct (IH H O) as (p & g & A & B & C). exists p, g. repeat split; auto.
    rewrite regs_app. apply in_or_app. auto.
  - destruct e; cbn [due_of] in H; try (destruct H; fail).
    + destruct (settlements p t) as [|[st v] rest]; [destruct H|].
      destruct H as [<-|[]]. exists p, (Reg n0 f r c). rewrite of_prom_due, Nat.eqb_refl.
      split; [reflexivity|]. split.
      * rewrite regs_app. apply in_or_app. right. cbn. rewrite Nat.eqb_refl. left. reflexivity.
      * destruct st; cbn in O; now apply Nat.eqb_eq in O.
    + apply in_map_iff in H. destruct H as (g & <- & G). exists p, g.
      rewrite of_prom_due, Nat.eqb_refl. split; [reflexivity|]. split.
      * rewrite regs_app. apply in_or_app. auto.
      * destruct st; cbn in O; now apply Nat.eqb_eq in O.
    + destruct H as [<-|[]]. discriminate.
Qed.

Lemma filter_both : forall A (f g : A -> bool) l,
  (forall x, In x l -> f x = true -> g x = true) -> filter f l = filter f (filter g l).
Proof.
  induction l as [|x l IH]; intros H; [reflexivity|].
  cbn [filter]. rewrite IH by (intros; apply H; cbn; auto).
  destruct (f x) eqn:F.
  - rewrite (H x) by (cbn; auto). cbn [filter]. now rewrite F.
  - destruct (g x); cbn [filter]; rewrite ?F; reflexivity.
Qed.

Lemma filter_reg : forall p l g st v, NoDup (map g_num l) -> In g l ->
  filter (of_reg (g_num g)) (map (fun g => due_job p g st v) l) = [due_job p g st v].
Proof.
  intros p l g st v.
  assert (O : forall h n, of_reg n (due_job p h st v) = (g_num h =? n))
    by (intros; destruct st; reflexivity).
  assert (None0 : forall n m, ~ In n (map g_num m) ->
     filter (of_reg n) (map (fun g => due_job p g st v) m) = []).
  { induction m as [|h m IH]; intros H; [reflexivity|]. cbn [map filter]. rewrite O.
    cbn [map In] in H. destruct (Nat.eqb_spec (g_num h) n); [tauto|]. apply IH. tauto. }
  induction l as [|h l IH]; intros D H; [destruct H|].
  cbn [map] in D. inversion D; subst. cbn [map filter]. rewrite O.
  destruct H as [->|H].
  - rewrite Nat.eqb_refl. f_equal. now apply None0.
  - destruct (Nat.eqb_spec (g_num h) (g_num g)) as [E|E]; [|auto].
    exfalso. apply H2. rewrite E. now apply in_map.
Qed.

Lemma reg_once : forall l s n p f r c, run init l = Ok s -> In (EReg n p f r c) (trace s) ->
  filter (of_reg n) (started (trace s) ++ queue s) =
  match outcome s p with
  | None => []
  | Some (st, v) => [due_job p (Reg n f r c) st v]
  end.
Proof.
  intros l s n p f r c R H.
  pose proof (inv2_run _ _ _ inv2_init R) as [N _].
  assert (D : NoDup (reg_nums (trace s))) by (rewrite N; apply seq_NoDup).
  apply in_regs in H.
  rewrite (filter_both _ (of_reg n) (of_prom p)).
  - rewrite (promise_jobs _ _ p R). destruct (outcome s p) as [[st v]|]; [|reflexivity].
    apply (filter_reg p _ (Reg n f r c) st v); [now apply regs_nodup|assumption].
  - intros j J O. rewrite (jobs_due _ _ R) in J.
    destruct (due_src _ _ _ J O) as (q & g & A & B & C0).
    destruct (same_reg _ _ _ _ _ D B H C0) as [-> _]. assumption.
Qed.

(** Jobs start only when taken from the head of the queue. *)
Lemma start_only_jobs : forall s a s', step s a = Ok s' ->
  started (trace s') = started (trace s) ++
    match a with AJob => match queue s with j :: _ => [j] | [] => [] end | _ => [] end.
Proof.
  intros s a s' E. destruct a; cbn [step] in E.
  - injection E as <-. cbn. now rewrite app_nil_r.
  - rewrite app_nil_r. now destruct (keeps_call s (VRes i) v _ E) as (_ & _ & ? & _).
  - rewrite app_nil_r. now destruct (keeps_call s (VRej i) v _ E) as (_ & _ & ? & _).
  - rewrite app_nil_r. destruct (nth_error (gets s) k) as [[p v]|]; [|discriminate].
    unfold resolve_got in E. destruct g.
    + now destruct (keeps_reject _ _ _ _ E) as (_ & _ & ? & _).
    + destruct (negb (callable v0)).
      * now destruct (keeps_fulfill _ _ _ _ E) as (_ & _ & ? & _).
      * injection E as <-. cbn. rewrite started_app. cbn. now rewrite app_nil_r.
  - rewrite app_nil_r. unfold perform_promise_then in E.
    destruct (nth_error (proms s) p) as [x|]; [|discriminate].
    destruct (p_state x); injection E as <-; cbn; rewrite started_app; cbn; apply app_nil_r.
  - rewrite app_nil_r. cbn in E. unfold perform_promise_then in E. cbn in E.
    destruct (nth_error _ p) as [x|]; [|discriminate].
    destruct (p_state x); injection E as <-; cbn; rewrite started_app; cbn; apply app_nil_r.
  - destruct (queue s) as [|j q]; [discriminate|]. destruct j as [p t h|r arg].
    + unfold promise_then_job in E. cbn [status_new] in E.
      destruct (keeps_call _ _ _ _ E) as (_ & _ & A & _). rewrite A. cbn.
      now rewrite started_app.
    + unfold promise_reaction_job in E. destruct (is_undef (r_handler r)).
      * destruct (reaction_done_caps _ _ _ _ _ E) as (_ & A & _). rewrite A. cbn.
        now rewrite started_app.
      * destruct (keeps_call _ _ _ _ E) as (_ & _ & A & _). rewrite A. cbn.
        now rewrite started_app.
  - rewrite app_nil_r. destruct (nth_error (frames s) k) as [f|]; [|discriminate].
    unfold return_to in E. destruct f, o;
      try (injection E as <-; reflexivity);
      try (now destruct (keeps_call _ (VRej s0) e _ E) as (_ & _ & ? & _));
      now destruct (reaction_done_caps _ _ _ _ _ E) as (_ & ? & _).
Qed.

(** Capability functions *)

Lemma reg_le1 : forall l s n, run init l = Ok s ->
  length (filter (of_reg n) (started (trace s) ++ queue s)) <= 1.
Proof.
  intros l s n R.
  destruct (filter (of_reg n) (started (trace s) ++ queue s)) as [|j0 r0] eqn:F; [cbn; lia|].
  assert (J : In j0 (due [] (trace s)) /\ of_reg n j0 = true).
  { rewrite <- (jobs_due _ _ R). apply filter_In. rewrite F. left. reflexivity. }
  destruct J as [J O]. destruct (due_src _ _ _ J O) as (p & [m f r c] & _ & G & E).
  cbn in E. subst m. apply in_regs in G. rewrite <- F, (reg_once _ _ _ _ _ _ _ R G).
  destruct (outcome s p) as [[st v]|]; cbn; lia.
Qed.

Lemma cnt_le : forall A (f g : A -> bool) l, (forall x, f x = true -> g x = true) ->
  cnt f l <= cnt g l.
Proof.
  induction l as [|x l IH]; intros H; [reflexivity|].
  rewrite !cnt_cons. specialize (IH H). destruct (f x) eqn:F; [rewrite (H _ F)|]; lia.
Qed.

Lemma cap_le1 : forall l s n, run init l = Ok s -> length (cap_calls n (trace s)) <= 1.
Proof.
  intros l s n R. pose proof (inv2_run _ _ _ inv2_init R) as [_ C]. specialize (C n).
  pose proof (reg_le1 _ _ n R) as L. rewrite filter_app, app_length in L.
  assert (cnt (cap_job n) (started (trace s)) <= cnt (of_reg n) (started (trace s))).
  { apply cnt_le. intros [|r a] H; [discriminate|]. cbn in *.
    apply andb_true_iff in H. tauto. }
  unfold cnt in *. lia.
Qed.

Lemma cap_done : forall l s n p f r c o, run init l = Ok s ->
  In (EReg n p f r c) (trace s) -> outcome s p = Some o -> c_promise c <> VUndef ->
  queue s = [] -> frames s = [] -> length (cap_calls n (trace s)) = 1.
Proof.
  intros l s n p f r c [st v] R H O P Q F.
  pose proof (inv2_run _ _ _ inv2_init R) as [_ C]. specialize (C n).
  rewrite F in C. rewrite cnt_nil, Nat.add_0_r in C. rewrite C.
  pose proof (reg_once _ _ _ _ _ _ _ R H) as E. rewrite O, Q, app_nil_r in E.
  unfold cnt. rewrite (filter_both _ (cap_job n) (of_reg n)).
  - rewrite E. cbn [filter]. destruct st; cbn; rewrite Nat.eqb_refl; unfold has_cap; cbn;
      destruct (c_promise c); try reflexivity; congruence.
  - intros [|r0 a] _ K; [discriminate|]. cbn in *. apply andb_true_iff in K. tauto.
Qed.

(** The function called and its argument. *)
Lemma cap_value : forall s k r o s', nth_error (frames s) k = Some (FReact r) ->
  c_promise (r_cap r) <> VUndef -> step s (AReturn k o) = Ok s' ->
  cap_calls (r_reg r) (trace s') = cap_calls (r_reg r) (trace s) ++
    [match o with RNormal v => (c_resolve (r_cap r), v) | RThrow e => (c_reject (r_cap r), e) end].
Proof.
  intros s k r o s' N P E. cbn [step] in E. rewrite N in E.
  assert (U : has_cap r = true) by (unfold has_cap; destruct (c_promise (r_cap r)); try reflexivity; congruence).
  destruct o; cbn [return_to] in E;
    destruct (reaction_done_caps _ _ _ _ _ E) as (_ & _ & _ & _ & A);
    rewrite A, Nat.eqb_refl, U; reflexivity.
Qed.

Lemma cap_passthrough : forall s r a q s', queue s = JReact r a :: q -> r_handler r = VUndef ->
  c_promise (r_cap r) <> VUndef -> step s AJob = Ok s' ->
  cap_calls (r_reg r) (trace s') = cap_calls (r_reg r) (trace s) ++
    [(match r_type r with RFul => c_resolve (r_cap r) | RRej => c_reject (r_cap r) end, a)].
Proof.
  intros s r a q s' Q H P E. cbn [step] in E. rewrite Q in E.
  unfold promise_reaction_job in E. rewrite H in E. cbn [is_undef] in E.
  assert (U : has_cap r = true) by (unfold has_cap; destruct (c_promise (r_cap r)); try reflexivity; congruence).
  destruct (reaction_done_caps _ _ _ _ _ E) as (_ & _ & _ & _ & A).
  rewrite A, Nat.eqb_refl, U. cbn [trace]. rewrite cap_calls_app. cbn [cap_calls].
  rewrite app_nil_r. destruct (r_type r); reflexivity.
Qed.

(** The handler is the function the job was made for; the frame waits for it. *)
Lemma handler_frame : forall s r a q s', queue s = JReact r a :: q -> r_handler r <> VUndef ->
  step s AJob = Ok s' -> frames s' = frames s ++ [FReact r].
Proof.
  intros s r a q s' Q H E. cbn [step] in E. rewrite Q in E.
  unfold promise_reaction_job in E.
  replace (is_undef (r_handler r)) with false in E by (destruct (r_handler r); try reflexivity; congruence).
  destruct (keeps_call _ _ _ _ E) as (A & _). rewrite A. reflexivity.
Qed.
