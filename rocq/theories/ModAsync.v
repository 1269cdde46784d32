(** Any program of module operations, with top level await: no body is started
    twice, results are never taken back. *)

From Coq Require Import ZArith List Bool Arith Lia Permutation.
From Verif Require Import ModModel ModSpec ModEval.
Import ListNotations.

Definition late (s : st) (x : nat) : Prop :=
  stat (mods s x) = Evaluating \/ stat (mods s x) = EvalAsync \/ stat (mods s x) = Evaluated.

(** What a module reached is kept. *)
Definition W (s s' : st) : Prop :=
  (forall x, late s x -> late s' x) /\
  (forall x, stat (mods s x) = Evaluated -> stat (mods s' x) = Evaluated /\ err (mods s' x) = err (mods s x)) /\
  (forall x p, top (mods s x) = Some p -> p <> Waiting -> top (mods s' x) = Some p).

Lemma W_refl s : W s s.
Proof. split; [|split]; auto. Qed.

Lemma W_trans a b c : W a b -> W b c -> W a c.
Proof.
  intros (x1 & x2 & x3) (y1 & y2 & y3). split; [|split]; auto.
  - intros x Hx. destruct (x2 x Hx) as [h1 h2]. destruct (y2 x h1) as [h3 h4]. split; [assumption|congruence].
Qed.

(** Nothing is known of the modules but that this did not change. *)
Lemma W_same s s' : (forall x, stat (mods s' x) = stat (mods s x) /\ err (mods s' x) = err (mods s x) /\ top (mods s' x) = top (mods s x)) ->
  W s s'.
Proof.
  intros H. split; [|split]; intros x; destruct (H x) as (h1 & h2 & h3); unfold late; rewrite ?h1, ?h2, ?h3; auto.
Qed.

(** No module was started twice; a started one does not wait for others. *)
Definition I (s : st) : Prop :=
  NoDup (sta (log s)) /\ forall x, In x (sta (log s)) -> late s x /\ pend (mods s x) = 0%Z.

(** Started modules: only those that were not late; the counters of the late
    modules outside [X] are not touched. *)
Definition T (X : nat -> Prop) (s s' : st) : Prop :=
  W s s' /\
  (exists N, sta (log s') = N ++ sta (log s) /\ NoDup N /\
     forall x, In x N -> ~ late s x /\ late s' x /\ pend (mods s' x) = 0%Z) /\
  forall x, late s x -> ~ X x -> pend (mods s' x) = pend (mods s x).

Definition no (x : nat) : Prop := False.

Lemma T_refl (X : nat -> Prop) s : T X s s.
Proof. split; [apply W_refl|]. split; [|auto]. exists []. split; [reflexivity|]. split; [constructor|]. intros x []. Qed.

Lemma T_trans (X : nat -> Prop) a b c : (forall x, X x -> late a x) -> T X a b -> T X b c -> T X a c.
Proof.
  intros HX (w1 & (N1 & n1 & d1 & m1) & p1) (w2 & (N2 & n2 & d2 & m2) & p2).
  split; [eapply W_trans; eassumption|]. split.
  - exists (N2 ++ N1). rewrite n2, n1, app_assoc. split; [reflexivity|]. split.
    + clear - d1 d2 m1 m2. induction N2 as [|x N2 IH]; [assumption|]. inversion_clear d2. cbn [app]. constructor.
      * intros h. apply in_app_or in h. destruct h as [h|h]; [contradiction|].
        destruct (m2 x (or_introl eq_refl)) as (h1 & _). destruct (m1 x h) as (_ & h2 & _). contradiction.
      * apply IH; [assumption|]. intros y Hy. apply m2. now right.
    + intros x Hx. apply in_app_or in Hx. destruct Hx as [Hx|Hx].
      * destruct (m2 x Hx) as (h1 & h2). split; [|assumption]. intros h. apply h1. now apply w1.
      * destruct (m1 x Hx) as (h1 & h2 & h3). split; [assumption|]. split; [now apply w2|].
        rewrite p2; auto.
  - intros x Hx Hn. rewrite p2, p1; auto. now apply w1.
Qed.

Lemma T_no a b c : T no a b -> T no b c -> T no a c.
Proof. apply T_trans. intros x []. Qed.

Lemma T_I s s' : T no s s' -> I s -> I s'.
Proof.
  intros (w & (N & n & d & m) & p) [i1 i2]. split.
  - rewrite n. clear n. induction N as [|x N IH]; [assumption|]. inversion_clear d. cbn [app]. constructor.
    + intros h. apply in_app_or in h. destruct h as [h|h]; [contradiction|].
      destruct (m x (or_introl eq_refl)) as (h1 & _). apply h1. now apply i2.
    + apply IH; [assumption|]. intros y Hy. apply m. now right.
  - intros x Hx. rewrite n in Hx. apply in_app_or in Hx. destruct Hx as [Hx|Hx].
    + destruct (m x Hx) as (_ & h1 & h2). auto.
    + destruct (i2 x Hx) as [h1 h2]. split; [now apply w|]. rewrite p; auto.
Qed.

(** The stack of the evaluation. *)
Definition S1 (s : st) : Prop := NoDup (stk s) /\ forall x, In x (stk s) -> stat (mods s x) = Evaluating.
(** The stack of linking. *)
Definition S2 (s : st) : Prop := forall x, In x (stk s) -> ~ late s x.

(** The outcome [r] of a computation that began in [s]. *)
Definition post (S : st -> Prop) (X : nat -> Prop) {A} (s : st) (r : res A * st) : Prop := T X s (snd r) /\ S (snd r).

Section Tri.
Variable S : st -> Prop.

Definition tri (X : nat -> Prop) {A} (c : M A) : Prop :=
  forall s, S s -> (forall x, X x -> late s x) -> post S X s (c s).

Lemma tri_bind X {A B} (c : M A) (k : A -> M B) : tri X c -> (forall a, tri X (k a)) -> tri X (bind c k).
Proof.
  intros Hc Hk s HS HX. destruct (Hc s HS HX) as [h1 h2]. unfold bind. destruct (c s) as [[a|e| |] s1]; cbn [snd] in *; try (split; assumption).
  assert (HX1 : forall x, X x -> late s1 x) by (intros x Hx; apply h1; auto).
  destruct (Hk a s1 h2 HX1) as [h3 h4]. split; [|assumption]. eapply T_trans; eassumption.
Qed.

Lemma tri_pure X {A} (c : M A) : (forall s, snd (c s) = s) -> tri X c.
Proof. intros H s HS HX. unfold post. rewrite H. split; [apply T_refl|assumption]. Qed.

Lemma tri_ret X {A} (a : A) : tri X (ret a). Proof. now apply tri_pure. Qed.
Lemma tri_thrown X {A} e : tri X (@thrown A e). Proof. now apply tri_pure. Qed.
Lemma tri_abort X {A} : tri X (@abort A). Proof. now apply tri_pure. Qed.
Lemma tri_nofuel X {A} : tri X (@nofuel A). Proof. now apply tri_pure. Qed.
Lemma tri_read X {A} (f : modrec -> A) m : tri X (read f m). Proof. now apply tri_pure. Qed.
Lemma tri_assert X b : tri X (assert b). Proof. apply tri_pure. intros s. now destruct b. Qed.
Lemma tri_stack X : tri X stack. Proof. now apply tri_pure. Qed.

Lemma tri_requests X (call : nat -> nat -> M nat) (post : nat -> M unit) :
  (forall r i, tri X (call r i)) -> (forall r, tri X (post r)) -> forall l i, tri X (requests call post l i).
Proof.
  intros Hc Hp. induction l as [|r l IH]; intros i; cbn [requests]; [apply tri_ret|].
  apply tri_bind; [apply Hc|]. intros i'. apply tri_bind; [apply Hp|]. intros _. apply IH.
Qed.

Lemma tri_weak X {A} (c : M A) : (forall s, S s -> post S no s (c s)) -> tri X c.
Proof.
  intros H s HS HX. destruct (H s HS) as [(h1 & h2 & h3) h4]. split; [|assumption].
  split; [assumption|]. split; [assumption|]. intros x Hx _. now apply h3.
Qed.
End Tri.

Ltac tri := repeat first
  [ apply tri_ret | apply tri_thrown | apply tri_abort | apply tri_nofuel | apply tri_read | apply tri_assert
  | apply tri_stack | apply tri_bind; [|intros ?] ].

Lemma NoDup_app_one (l : list nat) x : NoDup l -> ~ In x l -> NoDup (l ++ [x]).
Proof.
  intros Hd Hn. apply NoDup_rev in Hd. rewrite <- (rev_involutive (l ++ [x])). apply NoDup_rev.
  rewrite rev_app_distr. cbn. constructor; [now rewrite <- in_rev|assumption].
Qed.

Section Graph.
Variable G : graph.

(** Writing a field that is none of the status, the error and the promise. *)
Lemma write_T (X : nat -> Prop) m f s : (forall r, stat (f r) = stat r /\ err (f r) = err r /\ top (f r) = top r) ->
  (forall r, X m \/ pend (f r) = pend r) -> T X s (snd (write m f s)).
Proof.
  intros Hf Hp. unfold write. cbn [snd]. split; [|split].
  - apply W_same. intros x. cbn [mods]. destruct (Nat.eqb_spec x m) as [->|n]; [apply Hf|auto].
  - exists []. split; [reflexivity|]. split; [constructor|]. intros x [].
  - intros x Hx Hn. cbn [mods]. destruct (Nat.eqb_spec x m) as [->|n]; [|reflexivity]. destruct (Hp (mods s m)); [contradiction|assumption].
Qed.

Lemma write_S1 m f s : (forall r, stat (f r) = stat r) -> S1 s -> S1 (snd (write m f s)).
Proof.
  intros Hf [h1 h2]. unfold write. split; cbn [snd stk mods]; [assumption|]. intros x Hx.
  destruct (Nat.eqb_spec x m) as [->|n]; [rewrite Hf|]; auto.
Qed.

Lemma tri_write (X : nat -> Prop) m f : (forall r, stat (f r) = stat r /\ err (f r) = err r /\ top (f r) = top r) ->
  (forall r, X m \/ pend (f r) = pend r) -> tri S1 X (write m f).
Proof.
  intros H1 H2 s HS HX. split; [now apply write_T|]. apply write_S1; [|assumption]. intros r. apply H1.
Qed.

Lemma tri_eval_req m r : tri S1 (eq m) (eval_req m r).
Proof.
  unfold eval_req. tri.
  - destruct (status_eqb a Evaluating); tri.
    + apply tri_write; [intros; auto|]. intros; now right.
    + destruct a1; tri. destruct a3; tri.
  - destruct (Nat.eqb a2 0); tri; apply tri_write; try (intros; now auto).
Qed.

(** The bodies leave the modules as they are but for [aeval] and [live]. *)
Definition same (s s' : st) : Prop :=
  stk s' = stk s /\ forall x, stat (mods s' x) = stat (mods s x) /\ err (mods s' x) = err (mods s x) /\
    top (mods s' x) = top (mods s x) /\ pend (mods s' x) = pend (mods s x).

Lemma same_refl s : same s s.
Proof. split; [reflexivity|]. auto. Qed.

Lemma same_write m f s : (forall r, stat (f r) = stat r /\ err (f r) = err r /\ top (f r) = top r /\ pend (f r) = pend r) ->
  same s (snd (write m f s)).
Proof. intros H. split; [reflexivity|]. intros x. cbn. destruct (Nat.eqb_spec x m) as [->|n]; auto. Qed.

Lemma same_trans a b c : same a b -> same b c -> same a c.
Proof.
  intros [h1 h2] [k1 k2]. split; [congruence|]. intros x. destruct (h2 x) as (a1 & a2 & a3 & a4), (k2 x) as (b1 & b2 & b3 & b4).
  repeat split; congruence.
Qed.

Lemma execute_same m s : same s (snd (execute G m s)) /\ sta (log (snd (execute G m s))) = m :: sta (log s).
Proof.
  unfold execute, bind, say. destruct (body G m); cbn [thrown snd]; (split; [split; [reflexivity|auto]|reflexivity]).
Qed.

Lemma execute_async_same m s : same s (snd (execute_async m s)) /\ sta (log (snd (execute_async m s))) = m :: sta (log s).
Proof.
  unfold execute_async, bind, say, write. cbn [snd]. split; [|reflexivity]. split; [reflexivity|]. intros x. cbn [mods].
  destruct (Nat.eqb_spec x m) as [->|n]; auto.
Qed.

Lemma eval_body_same m s : same s (snd (eval_body G m s)) /\
  (sta (log (snd (eval_body G m s))) = sta (log s) \/
   (sta (log (snd (eval_body G m s))) = m :: sta (log s) /\ pend (mods s m) = 0%Z)).
Proof.
  remember (eval_body G m s) as r eqn:Hr.
  unfold eval_body, bind at 1, read at 1 in Hr. destruct (Z.eqb_spec (pend (mods s m)) 0) as [e|n]; cbn [negb orb] in Hr.
  - destruct (tla G m).
    + unfold bind at 1, read at 1, bind at 1, assert in Hr. destruct (Nat.eqb _ _); [|subst r; split; [apply same_refl|now left]].
      unfold ret, bind at 1, next_cnt, bind at 1 in Hr.
      set (s1 := St _ _ _ _) in Hr. set (w := write _ _ s1) in Hr.
      assert (Hw : same s1 (snd w)) by (apply same_write; auto).
      assert (E : w = (Ok tt, snd w)) by reflexivity. rewrite E in Hr. cbv beta iota in Hr.
      destruct (execute_async_same m (snd w)) as [h1 h2]. rewrite <- Hr in *. split.
      * eapply same_trans; [|exact h1]. eapply same_trans; [|exact Hw]. split; [reflexivity|]. auto.
      * right. rewrite h2. auto.
    + destruct (execute_same m s) as [h1 h2]. rewrite <- Hr in *. auto.
  - unfold bind at 1, read at 1, bind at 1, assert in Hr. destruct (Nat.eqb _ _); [|subst r; split; [apply same_refl|now left]].
    unfold ret, bind at 1, next_cnt, bind at 1 in Hr.
    set (s1 := St _ _ _ _) in Hr. set (w := write _ _ s1) in Hr.
    assert (Hw : same s1 (snd w)) by (apply same_write; auto).
    assert (E : w = (Ok tt, snd w)) by reflexivity. rewrite E in Hr. cbv beta iota in Hr. subst r. cbn [snd]. split.
    + eapply same_trans; [|exact Hw]. split; [reflexivity|]. auto.
    + now left.
Qed.

Lemma same_late s s' x : same s s' -> (late s' x <-> late s x).
Proof. intros [_ H]. destruct (H x) as (h & _). unfold late. now rewrite h. Qed.

Lemma same_W s s' : same s s' -> W s s'.
Proof. intros [_ H]. apply W_same. intros x. destruct (H x) as (h1 & h2 & h3 & _). auto. Qed.

Lemma same_S1 s s' : same s s' -> S1 s -> S1 s'.
Proof. intros [e H] [h1 h2]. split; rewrite e; [assumption|]. intros x Hx. destruct (H x) as (-> & _). auto. Qed.

(** A module taken off the stack. *)
Lemma unstack_T m : forall l s, S1 s -> stk s = l ->
  post S1 no s (unstack (eval_pop m) m l s).
Proof.
  induction l as [|t l IH]; intros s [d h] Hs; cbn [unstack]; [split; [apply T_refl|split; assumption]|].
  rewrite Hs in d, h. inversion_clear d as [|? ? Ht Hl].
  unfold bind at 1, set_stack at 1, bind at 1. set (s1 := St _ _ _ _).
  assert (Hev : stat (mods s t) = Evaluating) by (apply h; now left).
  assert (EP : exists s2, eval_pop m t s1 = (Ok tt, s2) /\ T no s s2 /\ S1 s2 /\ stk s2 = l).
  { unfold eval_pop, bind, write, read. eexists. split; [reflexivity|]. cbn [mods s1]. split; [|split; [|reflexivity]].
    - split; [|split].
      + split; [|split]; cbn [mods]; unfold late; cbn [mods]; intros x; destruct (Nat.eqb_spec x t) as [->|n]; auto.
        * intros _. rewrite Nat.eqb_refl. cbn [stat set_stat]. destruct (Nat.eqb _ 0); auto.
        * intros e. congruence.
        * rewrite Nat.eqb_refl. cbn [top set_stat set_root]. auto.
      + exists []. split; [reflexivity|]. split; [constructor|]. intros x [].
      + intros x Hx _. cbn [mods]. rewrite Nat.eqb_refl. destruct (Nat.eqb_spec x t) as [->|n]; reflexivity.
    - split; [assumption|]. cbn [stk mods]. intros x Hx. destruct (Nat.eqb_spec x t) as [->|n]; [contradiction|]. apply h. now right. }
  destruct EP as (s2 & -> & h1 & h2 & h3). destruct (Nat.eqb t m); [split; assumption|].
  destruct (IH s2 h2 h3) as [k1 k2]. split; [|assumption]. eapply T_no; eassumption.
Qed.

Lemma T_enter m s s1 s2 : ~ late s m -> W s s1 -> (forall x, x <> m -> late s1 x -> late s x) -> sta (log s1) = sta (log s) ->
  (forall x, pend (mods s1 x) = pend (mods s x)) -> late s1 m -> T (eq m) s1 s2 ->
  T no s s2 /\ (exists N, sta (log s2) = N ++ sta (log s) /\ ~ In m N /\ NoDup N /\ forall x, In x N -> ~ late s x /\ late s2 x /\ pend (mods s2 x) = 0%Z).
Proof.
  intros Hm Hw Hl Hs Hp Hm1 (w & (N & n1 & n2 & n3) & p).
  assert (HN : forall x, In x N -> ~ late s x /\ late s2 x /\ pend (mods s2 x) = 0%Z).
  { intros x Hx. destruct (n3 x Hx) as (a & b & c). split; [|auto]. intros h. apply a. now apply Hw. }
  assert (Hmn : ~ In m N). { intros h. destruct (n3 m h) as (a & _). contradiction. }
  split.
  - split; [eapply W_trans; eassumption|]. split.
    + exists N. rewrite n1, Hs. auto.
    + intros x Hx _. rewrite p; [apply Hp|now apply Hw|]. intros <-. contradiction.
  - exists N. rewrite n1, Hs. auto.
Qed.

Lemma inner_eval_tri f : forall m i, tri S1 no (inner_eval G f m i).
Proof.
  induction f as [|f IH]; intros m i s HS _; cbn [inner_eval]; unfold bind at 1, read at 1.
  - destruct (stat (mods s m)); cbn [abort nofuel ret snd]; try (split; [apply T_refl|assumption]);
      (unfold bind, read; destruct (err (mods s m)); cbn [thrown ret snd]; (split; [apply T_refl|assumption])).
  - destruct (stat (mods s m)) eqn:Em; cbn [abort nofuel ret snd]; try (split; [apply T_refl|assumption]);
      try (unfold bind, read; destruct (err (mods s m)); cbn [thrown ret snd]; (split; [apply T_refl|assumption])).
    assert (Hnl : ~ late s m) by (unfold late; rewrite Em; intuition discriminate).
    set (c := bind _ _).
    assert (Ec : c s = (i' <- requests (inner_eval G f) (eval_req m) (reqs G m) (S i) ;;
          eval_body G m ;;;
          d <- read dfs m ;; a <- read anc m ;;
          (if Nat.eqb d a then l <- stack ;; unstack (eval_pop m) m l else ret tt) ;;; ret i')
          (St (fun x => if Nat.eqb x m then set_dfs i (set_stat Evaluating (mods s m)) else mods s x) (m :: stk s) (cnt s) (log s))
        \/ exists s1, c s = (i' <- requests (inner_eval G f) (eval_req m) (reqs G m) (S i) ;;
          eval_body G m ;;;
          d <- read dfs m ;; a <- read anc m ;;
          (if Nat.eqb d a then l <- stack ;; unstack (eval_pop m) m l else ret tt) ;;; ret i') s1 /\
          stk s1 = m :: stk s /\ log s1 = log s /\
          forall x, mods s1 x = if Nat.eqb x m then set_dfs i (set_stat Evaluating (mods s m)) else mods s x).
    { right. unfold c. unfold bind at 1, write at 1, bind at 1, write at 1, bind at 1, stack at 1, bind at 1, set_stack at 1.
      eexists. split; [reflexivity|]. cbn [mods stk log]. split; [reflexivity|]. split; [reflexivity|].
      intros x. rewrite Nat.eqb_refl. destruct (Nat.eqb x m); reflexivity. }
    assert (Ec' : exists s1, c s = (i' <- requests (inner_eval G f) (eval_req m) (reqs G m) (S i) ;;
          eval_body G m ;;;
          d <- read dfs m ;; a <- read anc m ;;
          (if Nat.eqb d a then l <- stack ;; unstack (eval_pop m) m l else ret tt) ;;; ret i') s1 /\
          stk s1 = m :: stk s /\ log s1 = log s /\
          forall x, mods s1 x = if Nat.eqb x m then set_dfs i (set_stat Evaluating (mods s m)) else mods s x).
    { destruct Ec as [e|e]; [|exact e]. eexists. split; [exact e|]. auto. }
    clear Ec. destruct Ec' as (s1 & -> & k1 & k2 & k3). clear c.
    assert (HS1 : S1 s1).
    { destruct HS as [d h]. split; rewrite k1.
      - constructor; [|assumption]. intros hin. apply h in hin. congruence.
      - intros x Hx. rewrite k3. destruct (Nat.eqb_spec x m) as [->|n]; [reflexivity|]. destruct Hx as [->|Hx]; [contradiction|auto]. }
    assert (Hl1 : late s1 m) by (left; rewrite k3, Nat.eqb_refl; reflexivity).
    assert (Hw1 : W s s1).
    { split; [|split]; intros x; unfold late; rewrite k3; destruct (Nat.eqb_spec x m) as [->|n]; auto; rewrite Em; intuition discriminate. }
    assert (Hl2 : forall x, x <> m -> late s1 x -> late s x).
    { intros x Hx. unfold late. rewrite k3. apply Nat.eqb_neq in Hx. now rewrite Hx. }
    assert (Hp1 : forall x, pend (mods s1 x) = pend (mods s x)).
    { intros x. rewrite k3. destruct (Nat.eqb_spec x m) as [->|n]; reflexivity. }
    assert (HR : tri S1 (eq m) (requests (inner_eval G f) (eval_req m) (reqs G m) (S i))).
    { apply tri_requests; [|intros r; apply tri_eval_req]. intros r j. apply tri_weak. intros s' Hs'.
      apply IH; [assumption|intros x []]. }
    destruct (HR s1 HS1) as [r1 r2]; [intros x <-; assumption|].
    unfold bind at 1. destruct (requests _ _ _ _ s1) as [[i'|e| |] s2]; cbn [snd] in *.
    all: destruct (T_enter m s s1 s2 Hnl Hw1 Hl2 (f_equal sta k2) Hp1 Hl1 r1) as (t1 & N & n1 & n2 & n3 & n4); try (split; assumption).
    destruct (eval_body_same m s2) as [b1 b2]. unfold bind at 1.
    assert (Hlm2 : late s2 m) by (apply r1; assumption).
    assert (T3 : T no s (snd (eval_body G m s2))).
    { split; [eapply W_trans; [apply t1|now apply same_W]|]. split.
      - destruct b2 as [b2|[b2 b3]].
        + exists N. rewrite b2, n1. split; [reflexivity|]. split; [assumption|]. intros x Hx.
          destruct (n4 x Hx) as (u & v & w). split; [assumption|]. split; [now apply (same_late _ _ x b1)|].
          destruct b1 as [_ b1]. destruct (b1 x) as (_ & _ & _ & ->). assumption.
        + exists (m :: N). rewrite b2, n1. split; [reflexivity|]. split; [now constructor|]. intros x [<-|Hx].
          * split; [assumption|]. split; [now apply (same_late _ _ m b1)|]. destruct b1 as [_ b1]. destruct (b1 m) as (_ & _ & _ & ->). assumption.
          * destruct (n4 x Hx) as (u & v & w). split; [assumption|]. split; [now apply (same_late _ _ x b1)|].
            destruct b1 as [_ b1]. destruct (b1 x) as (_ & _ & _ & ->). assumption.
      - intros x Hx Hn. destruct b1 as [_ b1]. destruct (b1 x) as (_ & _ & _ & ->). now apply t1. }
    pose proof (same_S1 _ _ b1 r2) as S3.
    destruct (eval_body G m s2) as [[u|e| |] s3]; cbn [snd] in *; try (split; assumption).
    unfold bind at 1, read at 1, bind at 1, read at 1, bind at 1.
    destruct (Nat.eqb _ _); [|split; assumption].
    unfold bind at 1, stack at 1. destruct (unstack_T m (stk s3) s3 S3 eq_refl) as [u1 u2].
    destruct (unstack _ _ _ s3) as [[u'|e| |] s4]; cbn [snd ret] in *; (split; [|assumption]); eapply T_no; eassumption.
Qed.

(** Writes that end an evaluation. *)
Lemma T_write m f s : (forall x, x = m -> late s m -> stat (f (mods s m)) = stat (mods s m) \/ stat (f (mods s m)) = Evaluated) ->
  (stat (mods s m) = Evaluated -> err (f (mods s m)) = err (mods s m)) ->
  (forall p, top (mods s m) = Some p -> p <> Waiting -> top (f (mods s m)) = Some p) ->
  pend (f (mods s m)) = pend (mods s m) -> T no s (snd (write m f s)).
Proof.
  intros H1 H2 H3 H4. unfold write. cbn [snd]. split; [|split].
  - split; [|split]; cbn [mods]; unfold late; cbn [mods]; intros x; destruct (Nat.eqb_spec x m) as [->|n]; auto.
    + intros h. destruct (H1 m eq_refl h) as [-> | ->]; auto.
    + intros h. split; [|auto]. assert (hl : late s m) by (right; right; assumption).
      destruct (H1 m eq_refl hl) as [e|e]; congruence.
  - exists []. split; [reflexivity|]. split; [constructor|]. intros x [].
  - intros x Hx _. cbn [mods]. destruct (Nat.eqb_spec x m) as [->|n]; auto.
Qed.

Definition any (s : st) : Prop := True.

Lemma tri_settle m p : tri any no (write m (settle p)).
Proof.
  intros s _ _. split; [|exact Logic.I]. unfold write, settle.
  split; [|split].
  - split; [|split]; cbn [snd mods]; unfold late; cbn [mods]; intros x; destruct (Nat.eqb_spec x m) as [->|n]; auto;
      destruct (top (mods s m)) as [[]|] eqn:E; auto; cbn; intros; congruence.
  - exists []. split; [reflexivity|]. split; [constructor|]. intros x [].
  - intros x Hx _. cbn [snd mods]. destruct (Nat.eqb_spec x m) as [->|n]; [|reflexivity].
    destruct (top (mods s m)) as [[]|]; reflexivity.
Qed.

Lemma tri_eval_undo e t : tri any no (eval_undo e t).
Proof.
  intros s _ _. split; [|exact Logic.I]. unfold eval_undo, bind at 1, read at 1, bind at 1, assert.
  destruct (status_eqb _ _) eqn:E; [|apply T_refl]. assert (Es : stat (mods s t) = Evaluating) by (destruct (stat (mods s t)); easy).
  unfold ret, bind at 1. set (w := write t (set_stat Evaluated) s).
  assert (Ew : w = (Ok tt, snd w)) by reflexivity. rewrite Ew. unfold bind.
  set (w2 := write t (set_err e) (snd w)). assert (Ew2 : w2 = (Ok tt, snd w2)) by reflexivity. rewrite Ew2.
  split; [|split].
  - split; [|split]; cbn; unfold late; cbn; intros x; destruct (Nat.eqb_spec x t) as [->|n]; rewrite ?Nat.eqb_refl; cbn; auto; congruence.
  - exists []. split; [reflexivity|]. split; [constructor|]. intros x [].
  - intros x Hx _. cbn. destruct (Nat.eqb_spec x t) as [->|n]; rewrite ?Nat.eqb_refl; reflexivity.
Qed.

Lemma tri_iter (c : nat -> M unit) l : (forall x, tri any no (c x)) -> tri any no (iter c l).
Proof. intros H. induction l as [|x l IH]; cbn [iter]; tri; auto. Qed.

Lemma T_stk s l : T no s (St (mods s) l (cnt s) (log s)).
Proof.
  split; [apply W_same; auto|]. split; [|auto]. exists []. split; [reflexivity|]. split; [constructor|]. intros x [].
Qed.

Lemma evaluate_T f m s : T no s (snd (evaluate G f m s)).
Proof.
  unfold evaluate, bind at 1, read at 1, bind at 1.
  destruct (assert _ s) as [o sa] eqn:Ea. assert (sa = s) by (unfold assert in Ea; destruct (_ || _); injection Ea; auto). subst sa.
  destruct o; try apply T_refl. unfold bind at 1.
  destruct ((if status_eqb (stat (mods s m)) Linked then ret (Some m) else read root m) s) as [o sb] eqn:Eb.
  assert (sb = s) by (destruct (status_eqb _ _); injection Eb; auto). subst sb.
  destruct o as [[r|]|e| |]; try apply T_refl. unfold bind at 1, read at 1.
  destruct (top (mods s r)) as [p|] eqn:Et; cbn [is_some]; [apply T_refl|].
  unfold bind at 1, set_stack at 1, bind at 1. cbn [mods stk cnt log].
  set (s1 := St (mods s) [] (cnt s) (log s)). unfold bind at 1.
  set (w := write r (set_top Waiting) s1). assert (Ew : w = (Ok tt, snd w)) by reflexivity. rewrite Ew.
  assert (T1 : T no s (snd w)).
  { eapply T_no; [apply (T_stk s [])|]. apply T_write; cbn; auto. intros p Hp. congruence. }
  assert (HS : S1 (snd w)) by (split; [constructor|intros x []]).
  destruct (inner_eval_tri f r 0 (snd w) HS) as [T2 HS2]; [intros x []|].
  destruct (inner_eval G f r 0 (snd w)) as [[i|e| |] s2]; cbn [snd] in *.
  - assert (Hc : tri any no (a <- read aeval r ;;
         (if Nat.eqb a 0 then write r (set_stat Evaluated) ;;; write r (settle Resolved) else ret tt) ;;;
         l <- stack ;; assert (match l with [] => true | _ => false end))).
    { tri. match goal with |- context [Nat.eqb ?v 0] => destruct (Nat.eqb v 0) end; tri; [|apply tri_settle].
      intros s' _ _. split; [|exact Logic.I]. apply T_write; auto. }
    destruct (Hc s2 Logic.I) as [T3 _]; [intros x []|].
    assert (T4 : T no s s2) by (eapply T_no; eassumption).
    destruct (bind _ _ s2) as [[u|e| |] s3]; cbn [snd ret] in *; eapply T_no; eassumption.
  - assert (Hc : tri any no (l <- stack ;; iter (eval_undo e) l ;;; write r (settle (Rejected e)))).
    { tri; [|apply tri_settle]. apply tri_iter. intros x. apply tri_eval_undo. }
    destruct (Hc s2 Logic.I) as [T3 _]; [intros x []|].
    assert (T4 : T no s s2) by (eapply T_no; eassumption).
    destruct (bind _ _ s2) as [[u|e'| |] s3]; cbn [snd ret] in *; eapply T_no; eassumption.
  - eapply T_no; eassumption.
  - eapply T_no; eassumption.
Qed.

(** Linking leaves the modules that are being evaluated or were evaluated alone. *)
Lemma T_early m f s : ~ late s m -> (forall r, pend (f r) = pend r /\ top (f r) = top r) -> T no s (snd (write m f s)).
Proof.
  intros Hm Hf. unfold write. split; [|split].
  - split; [|split]; cbn [snd mods]; unfold late; cbn [mods]; intros x; destruct (Nat.eqb_spec x m) as [->|n]; auto.
    + intros h. contradiction.
    + intros h. exfalso. apply Hm. right. now right.
    + intros p. destruct (Hf (mods s m)) as [_ ->]. auto.
  - exists []. split; [reflexivity|]. split; [constructor|]. intros x [].
  - intros x Hx _. cbn [snd mods]. destruct (Nat.eqb_spec x m) as [->|n]; [|reflexivity]. apply Hf.
Qed.

Lemma write_S2 m f s : S2 s -> (~ late s m -> stat (f (mods s m)) = Linking \/ stat (f (mods s m)) = Linked \/ stat (f (mods s m)) = stat (mods s m)) ->
  S2 (snd (write m f s)).
Proof.
  intros HS Hf x Hx. cbn [snd write stk] in Hx. pose proof (HS x Hx) as h. unfold late. cbn [snd write mods].
  destruct (Nat.eqb_spec x m) as [->|n]; [|exact h]. destruct (Hf h) as [->|[->| ->]]; [intuition discriminate..|exact h].
Qed.

Lemma tri_link_req m r : tri S2 no (link_req m r).
Proof.
  unfold link_req. tri. destruct (status_eqb a Linking); tri. apply tri_weak. intros s HS. split.
  - apply write_T; auto.
  - apply write_S2; auto.
Qed.

Lemma tri_init m : tri S2 no (init_env G m).
Proof.
  intros s HS _. unfold init_env, bind, say. destruct (init G m); cbn [thrown ret];
    (split; [split; [now apply W_same|]; split; [exists []; split; [reflexivity|]; split; [constructor|intros x []]|auto]|exact HS]).
Qed.

Lemma unlink_T m : forall l s, S2 s -> stk s = l ->
  post S2 no s (unstack (fun t => write t (set_stat Linked)) m l s).
Proof.
  induction l as [|t l IH]; intros s HS Hs; cbn [unstack]; [split; [apply T_refl|assumption]|].
  unfold bind at 1, set_stack at 1, bind at 1. set (s1 := St _ _ _ _).
  assert (Ht : ~ late s t) by (apply HS; rewrite Hs; now left).
  assert (HS1 : S2 s1) by (intros x Hx; apply HS; rewrite Hs; now right).
  set (w := write t (set_stat Linked) s1). assert (Ew : w = (Ok tt, snd w)) by reflexivity. rewrite Ew.
  assert (Tw : T no s (snd w)).
  { eapply T_no; [apply (T_stk s l)|]. apply T_early; auto. }
  assert (Sw : S2 (snd w)) by (apply write_S2; auto).
  destruct (Nat.eqb t m); [split; assumption|].
  destruct (IH (snd w) Sw eq_refl) as [k1 k2]. split; [|assumption]. eapply T_no; eassumption.
Qed.

Lemma inner_link_tri f : forall m i, tri S2 no (inner_link G f m i).
Proof.
  induction f as [|f IH]; intros m i; intros s HS _; cbn [inner_link]; unfold bind at 1, read at 1;
    destruct (stat (mods s m)) eqn:Em; try (split; [apply T_refl|assumption]).
  set (k := fun _ : unit => _). unfold bind at 1. set (w := write m (set_stat Linking) s).
  assert (Hm : ~ late s m) by (unfold late; rewrite Em; intuition discriminate).
  assert (Tw : T no s (snd w)) by (apply T_early; auto).
  assert (Sw : S2 (snd w)) by (apply write_S2; auto).
  assert (Hmw : ~ late (snd w) m) by (unfold late; cbn; rewrite Nat.eqb_refl; cbn; intuition discriminate).
  assert (Ew : w = (Ok tt, snd w)) by reflexivity. rewrite Ew. clear Ew.
  unfold k. unfold bind at 1. set (w2 := write m (set_dfs i) (snd w)).
  assert (Tw2 : T no s (snd w2)) by (eapply T_no; [exact Tw|apply T_early; auto]).
  assert (Sw2 : S2 (snd w2)) by (apply write_S2; auto).
  assert (Hmw2 : ~ late (snd w2) m) by (unfold late; cbn; rewrite !Nat.eqb_refl; cbn; intuition discriminate).
  assert (Ew2 : w2 = (Ok tt, snd w2)) by reflexivity. rewrite Ew2. clear Ew2.
  unfold bind at 1, stack at 1, bind at 1, set_stack at 1. set (s3 := St _ _ _ _).
  assert (T3 : T no s s3) by (eapply T_no; [exact Tw2|apply T_stk]).
  assert (S3 : S2 s3).
  { intros x [<-|Hx]; [exact Hmw2|]. exact (Sw2 x Hx). }
  match goal with |- post _ _ _ (?c s3) => assert (Hc : tri S2 no c) end.
  { apply tri_bind; [apply tri_requests; [assumption|intros; apply tri_link_req]|]. intros i'.
    apply tri_bind; [apply tri_init|]. intros _. tri. destruct (Nat.eqb _ _); [|apply tri_ret].
    intros s' HS' _. unfold bind, stack. now apply unlink_T. }
  destruct (Hc s3 S3) as [h1 h2]; [intros x []|]. split; [|assumption]. eapply T_no; eassumption.
Qed.

Lemma tri_link_undo t : tri any no (link_undo t).
Proof.
  intros s _ _. split; [|exact Logic.I]. unfold link_undo, bind at 1, read at 1, bind at 1, assert.
  destruct (status_eqb _ _) eqn:E; [|apply T_refl]. apply T_early; [|auto].
  unfold late. destruct (stat (mods s t)); try discriminate E; intuition discriminate.
Qed.

Lemma link_T f m s : T no s (snd (link G f m s)).
Proof.
  unfold link, bind at 1, read at 1, bind at 1.
  destruct (assert _ s) as [o sa] eqn:Ea. assert (sa = s) by (unfold assert in Ea; destruct (_ && _); injection Ea; auto). subst sa.
  destruct o; try apply T_refl. unfold bind at 1, set_stack at 1.
  set (s1 := St _ _ _ _). assert (T1 : T no s s1) by apply T_stk.
  assert (HS : S2 s1) by (intros x []).
  destruct (inner_link_tri f m 0 s1 HS) as [T2 _]; [intros x []|].
  pose proof (T_no _ _ _ T1 T2) as T3.
  destruct (inner_link G f m 0 s1) as [[i|e| |] s2]; cbn [snd] in *; try assumption.
  - match goal with |- T no s (snd (?c s2)) => assert (Hc : tri any no c) by tri end.
    destruct (Hc s2 Logic.I) as [T4 _]; [intros x []|]. eapply T_no; eassumption.
  - match goal with |- T no s (snd (?c s2)) => assert (Hc : tri any no c) end.
    { tri. apply tri_iter. intros x. apply tri_link_undo. }
    destruct (Hc s2 Logic.I) as [T4 _]; [intros x []|]. eapply T_no; eassumption.
Qed.

(** The modules found by the search for ancestors: not started and waiting for
    nothing. *)
Definition V (s : st) (vec : list nat) : Prop :=
  NoDup vec /\ forall x, In x vec -> late s x /\ pend (mods s x) = 0%Z /\ ~ In x (sta (log s)).

(** What holds after a step that starts nothing. *)
Definition quiet (s s' : st) : Prop := W s s' /\ sta (log s') = sta (log s).

Lemma quiet_trans a b c : quiet a b -> quiet b c -> quiet a c.
Proof. intros [h1 h2] [k1 k2]. split; [eapply W_trans; eassumption|congruence]. Qed.
Lemma quiet_refl s : quiet s s.
Proof. split; [apply W_refl|reflexivity]. Qed.

Definition found (s : st) (r : res (list nat * list nat) * st) : Prop :=
  quiet s (snd r) /\ I (snd r) /\ match fst r with Ok (vec, _) => V (snd r) vec | _ => True end.

Lemma found_trans s s1 r : quiet s s1 -> found s1 r -> found s r.
Proof. intros h (a & b & c). split; [eapply quiet_trans; eassumption|]. auto. Qed.

Lemma found_self s vh : I s -> V s (fst vh) -> found s (Ok vh, s).
Proof. intros h v. destruct vh. split; [apply quiet_refl|]. auto. Qed.

Lemma found_fail s (o : res (list nat * list nat)) : I s -> match o with Ok _ => False | _ => True end -> found s (o, s).
Proof. intros h v. split; [apply quiet_refl|]. split; [assumption|]. destruct o; [contradiction|exact Logic.I..]. Qed.

Lemma dec_pend p s vec : I s -> V s vec -> (0 < pend (mods s p))%Z -> late s p ->
  let s' := snd (write p (add_pend (-1)) s) in
  quiet s s' /\ I s' /\ V s' vec /\ (pend (mods s' p) = 0%Z -> V s' (vec ++ [p])).
Proof.
  intros [i1 i2] [v1 v2] Hp Hl s'.
  assert (Hs : forall x, stat (mods s' x) = stat (mods s x) /\ err (mods s' x) = err (mods s x) /\ top (mods s' x) = top (mods s x)).
  { intros x. unfold s'. cbn. destruct (Nat.eqb_spec x p) as [->|n]; auto. }
  assert (Hl' : forall x, late s x -> late s' x) by (intros x; unfold late; destruct (Hs x) as (-> & _); auto).
  assert (Hq : forall x, x <> p -> pend (mods s' x) = pend (mods s x)).
  { intros x n. unfold s'. cbn. apply Nat.eqb_neq in n. now rewrite n. }
  assert (Hps : ~ In p (sta (log s))). { intros h. destruct (i2 p h) as [_ e]. lia. }
  assert (Hpv : ~ In p vec). { intros h. destruct (v2 p h) as (_ & e & _). lia. }
  assert (HV : V s' vec).
  { split; [assumption|]. intros x Hx. destruct (v2 x Hx) as (a & b & c). split; [auto|]. split; [|exact c].
    rewrite Hq; [assumption|]. intros ->. contradiction. }
  split; [split; [now apply W_same|reflexivity]|]. split; [|split; [assumption|]].
  - split; [exact i1|]. intros x Hx. destruct (i2 x Hx) as [a b]. split; [auto|]. rewrite Hq; [assumption|]. intros ->. contradiction.
  - intros h. destruct HV as [_ HV]. split.
    + apply NoDup_app_one; assumption.
    + intros x Hx. apply in_app_or in Hx. destruct Hx as [Hx|[<-|[]]]; [auto|]. split; [auto|]. split; [assumption|]. exact Hps.
Qed.

Lemma gather_one_found again p vh s :
  (forall q vh s, I s -> V s (fst vh) -> found s (again q vh s)) ->
  I s -> V s (fst vh) -> found s (gather_one G again p vh s).
Proof.
  intros Hag HI HV. unfold gather_one, bind at 1, read at 1.
  destruct (status_eqb (stat (mods s p)) Evaluated); [now apply found_self|].
  unfold bind at 1, read at 1, bind at 1.
  match goal with |- found s (match ?c with _ => _ end) => destruct c as [o sa] eqn:Ea end.
  assert (sa = s) by (destruct (root (mods s p)); injection Ea; auto). subst sa.
  destruct o as [bad| | |]; try (apply found_fail; [assumption|exact Logic.I]).
  destruct bad; [now apply found_self|]. destruct vh as [vec hash]. cbn [fst] in HV.
  destruct (existsb (Nat.eqb p) hash); [now apply found_self|].
  unfold bind at 1, assert at 1. destruct (status_eqb (stat (mods s p)) EvalAsync) eqn:Es; [|apply found_fail; [assumption|exact Logic.I]].
  unfold ret at 1, bind at 1, read at 1, bind at 1, assert at 1. destruct (negb _); [|apply found_fail; [assumption|exact Logic.I]].
  unfold ret at 1, bind at 1, read at 1, bind at 1, assert at 1. destruct (negb _); [|apply found_fail; [assumption|exact Logic.I]].
  unfold ret at 1, bind at 1, read at 1, bind at 1, assert at 1.
  destruct (Z.ltb_spec 0 (pend (mods s p))) as [Hp|Hp]; [|apply found_fail; [assumption|exact Logic.I]].
  unfold ret at 1, bind at 1. set (w := write p (add_pend (-1)) s).
  assert (Ew : w = (Ok tt, snd w)) by reflexivity. rewrite Ew.
  assert (Hl : late s p) by (right; left; destruct (stat (mods s p)); easy).
  destruct (dec_pend p s vec HI HV Hp Hl) as (d1 & d2 & d3 & d4). fold w in d1, d2, d3, d4.
  unfold bind at 1, read at 1. destruct (Z.eqb_spec (pend (mods (snd w) p)) 0) as [e|n].
  - destruct (tla G p).
    + eapply found_trans; [exact d1|]. apply found_self; auto.
    + eapply found_trans; [exact d1|]. apply Hag; auto.
  - eapply found_trans; [exact d1|]. now apply found_self.
Qed.

Lemma gather_list_found again : (forall q vh s, I s -> V s (fst vh) -> found s (again q vh s)) ->
  forall l vh s, I s -> V s (fst vh) -> found s (gather_list G again l vh s).
Proof.
  intros Hag. induction l as [|p l IH]; intros vh s HI HV; cbn [gather_list]; [now apply found_self|].
  pose proof (gather_one_found again p vh s Hag HI HV) as H. unfold bind.
  destruct (gather_one G again p vh s) as [[[vec hash]|e| |] s1]; try exact H.
  destruct H as (h1 & h2 & h3). cbn [fst snd] in *. eapply found_trans; [exact h1|]. apply IH; auto.
Qed.

Lemma gather_found f : forall m vh s, I s -> V s (fst vh) -> found s (gather G f m vh s).
Proof.
  induction f as [|f IH]; intros m vh s HI HV; cbn [gather].
  - split; [apply quiet_refl|]. cbn. auto.
  - unfold bind at 1, read at 1. apply gather_list_found; auto.
Qed.

(** Steps that start nothing and leave the counters. *)
Definition calm_step (s s' : st) : Prop := quiet s s' /\ forall x, pend (mods s' x) = pend (mods s x).

Lemma calm_trans a b c : calm_step a b -> calm_step b c -> calm_step a c.
Proof. intros [h1 h2] [k1 k2]. split; [eapply quiet_trans; eassumption|]. intros x. now rewrite k2. Qed.
Lemma calm_refl s : calm_step s s.
Proof. split; [apply quiet_refl|reflexivity]. Qed.
Lemma calm_I s s' : calm_step s s' -> I s -> I s'.
Proof.
  intros [[w e] p] [i1 i2]. split; rewrite e; [assumption|]. intros x Hx. destruct (i2 x Hx). split; [now apply w|]. now rewrite p.
Qed.
Lemma calm_V s s' v : calm_step s s' -> V s v -> V s' v.
Proof.
  intros [[w e] p] [i1 i2]. split; [assumption|]. rewrite e. intros x Hx. destruct (i2 x Hx) as (a & b & c). split; [now apply w|]. now rewrite p.
Qed.

Definition still {A} (c : M A) : Prop := forall s, calm_step s (snd (c s)).

Lemma still_bind {A B} (c : M A) (k : A -> M B) : still c -> (forall a, still (k a)) -> still (bind c k).
Proof.
  intros Hc Hk s. pose proof (Hc s) as h. unfold bind. destruct (c s) as [[a|e| |] s1]; cbn [snd] in *; auto.
  eapply calm_trans; [exact h|apply Hk].
Qed.
Lemma still_pure {A} (c : M A) : (forall s, snd (c s) = s) -> still c.
Proof. intros H s. rewrite H. apply calm_refl. Qed.
Lemma still_ret {A} (a : A) : still (ret a). Proof. now apply still_pure. Qed.
Lemma still_nofuel {A} : still (@nofuel A). Proof. now apply still_pure. Qed.
Lemma still_read {A} (f : modrec -> A) m : still (read f m). Proof. now apply still_pure. Qed.
Lemma still_assert b : still (assert b). Proof. apply still_pure. intros s. now destruct b. Qed.
Lemma still_settle m p : still (write m (settle p)).
Proof.
  intros s. destruct (tri_settle m p s Logic.I) as [(w & (N & _) & _) _]; [intros x []|]. split; [split; [exact w|reflexivity]|].
  intros x. cbn. destruct (Nat.eqb_spec x m) as [->|n]; [|reflexivity]. unfold settle. destruct (top (mods s m)) as [[]|]; reflexivity.
Qed.
Lemma still_iter (c : nat -> M unit) l : (forall x, still (c x)) -> still (iter c l).
Proof. intros H. induction l as [|x l IH]; cbn [iter]; [apply still_ret|]. apply still_bind; auto. Qed.

Ltac still := repeat first
  [ apply still_ret | apply still_nofuel | apply still_read | apply still_assert | apply still_settle | apply still_bind; [|intros ?] ].

(** The status of a module that is not evaluated becomes evaluated. *)
Lemma calm_write m f s : stat (mods s m) <> Evaluated ->
  (forall r, late s m -> stat (f r) = stat r \/ stat (f r) = Evaluated) ->
  (forall r, pend (f r) = pend r /\ top (f r) = top r) -> calm_step s (snd (write m f s)).
Proof.
  intros H1 H2 H3. split; [split; [|reflexivity]|].
  - split; [|split]; cbn; unfold late; cbn; intros x; destruct (Nat.eqb_spec x m) as [->|n]; auto.
    + intros h. destruct (H2 (mods s m) h) as [-> | ->]; auto.
    + intros h. contradiction.
    + destruct (H3 (mods s m)) as [_ ->]. auto.
  - intros x. cbn. destruct (Nat.eqb_spec x m) as [->|n]; [|reflexivity]. apply H3.
Qed.

Lemma rejected_still f : forall e m, still (rejected f e m).
Proof.
  induction f as [|f IH]; intros e m; cbn [rejected]; intros s; unfold bind at 1, read at 1;
    destruct (status_eqb (stat (mods s m)) Evaluated) eqn:E.
  1,3: apply still_bind; [apply still_read|intros; apply still_assert].
  - apply still_nofuel.
  - assert (Hn : stat (mods s m) <> Evaluated) by (intros h; rewrite h in E; discriminate).
    unfold bind at 1, assert. destruct (status_eqb (stat (mods s m)) EvalAsync); [|apply calm_refl].
    unfold ret at 1.
    set (k := fun _ : unit => _). unfold bind at 1. set (w := write m (set_stat Evaluated) s).
    assert (Ew : w = (Ok tt, snd w)) by reflexivity. rewrite Ew. unfold k. clear k. unfold bind at 1.
    set (w2 := write m (set_err e) (snd w)). assert (Ew2 : w2 = (Ok tt, snd w2)) by reflexivity. rewrite Ew2.
    assert (C2 : calm_step s (snd w2)).
    { split; [split; [|reflexivity]|].
      - split; [|split]; cbn; unfold late; cbn; intros x; destruct (Nat.eqb_spec x m) as [->|n]; rewrite ?Nat.eqb_refl; cbn; auto.
        intros h. contradiction.
      - intros x. cbn. destruct (Nat.eqb_spec x m) as [->|n]; rewrite ?Nat.eqb_refl; reflexivity. }
    match goal with |- calm_step s (snd (?c _)) => assert (Hc : still c) end.
    { still. - now apply still_iter. - destruct (is_some _); still. }
    eapply calm_trans; [exact C2|apply Hc].
Qed.

(** Steps that may start modules. *)
Definition fine (s s' : st) : Prop := W s s' /\ I s'.

Lemma fine_trans a b c : fine a b -> fine b c -> fine a c.
Proof. intros [h1 h2] [k1 k2]. split; [eapply W_trans; eassumption|assumption]. Qed.

Lemma calm_fine s s' : I s -> calm_step s s' -> fine s s'.
Proof. intros h c. split; [apply c|]. eapply calm_I; eassumption. Qed.

Lemma start_one s s' p vec : I s -> V s (p :: vec) -> same s s' -> sta (log s') = p :: sta (log s) -> fine s s' /\ V s' vec.
Proof.
  intros [i1 i2] [v1 v2] Hs E. inversion_clear v1 as [|? ? Hn Hd].
  assert (Hl : forall x, late s x -> late s' x) by (intros x; apply (same_late _ _ x Hs)).
  assert (Hp : forall x, pend (mods s' x) = pend (mods s x)) by (intros x; destruct Hs as [_ Hs]; destruct (Hs x) as (_ & _ & _ & ->); reflexivity).
  destruct (v2 p (or_introl eq_refl)) as (a & b & c). split.
  - split; [now apply same_W|]. split; rewrite E.
    + constructor; assumption.
    + intros x [<-|Hx]; [split; [auto|now rewrite Hp]|]. destruct (i2 x Hx). split; [auto|]. now rewrite Hp.
  - split; [assumption|]. intros x Hx. destruct (v2 x (or_intror Hx)) as (a' & b' & c'). split; [auto|]. split; [now rewrite Hp|].
    rewrite E. intros [<-|h]; contradiction.
Qed.

Lemma execute_each_fine f : forall vec done s, I s -> V s vec -> fine s (snd (execute_each G f vec done s)).
Proof.
  induction vec as [|p vec IH]; intros dn s HI HV; cbn [execute_each]; [split; [apply W_refl|assumption]|].
  assert (HV' : V s vec). { destruct HV as [v1 v2]. inversion_clear v1. split; [assumption|]. intros x Hx. apply v2. now right. }
  unfold bind at 1, read at 1. destruct (status_eqb (stat (mods s p)) Evaluated) eqn:Es.
  - unfold bind at 1, read at 1, bind at 1, assert.
    destruct (err (mods s p)) as [[|e]|]; cbn [abort ret snd]; try (split; [apply W_refl|assumption]). now apply IH.
  - assert (Hn : stat (mods s p) <> Evaluated) by (intros h; rewrite h in Es; discriminate).
    destruct (tla G p).
    + destruct (execute_async_same p s) as [h1 h2]. destruct (start_one s _ p vec HI HV h1 h2) as [f1 f2].
      unfold bind at 1. assert (E : execute_async p s = (Ok tt, snd (execute_async p s))) by reflexivity. rewrite E.
      eapply fine_trans; [exact f1|]. apply IH; [apply f1|assumption].
    + destruct (execute_same p s) as [h1 h2]. destruct (start_one s _ p vec HI HV h1 h2) as [f1 f2].
      destruct (execute G p s) as [[u|e| |] s1]; cbn [snd] in *; auto.
      * assert (Hn1 : stat (mods s1 p) <> Evaluated) by (destruct h1 as [_ h1]; destruct (h1 p) as (-> & _); assumption).
        match goal with |- fine s (snd (bind _ ?k s1)) => set (kk := k) end.
        unfold bind at 1. set (w := write p (set_stat Evaluated) s1). assert (Ew : w = (Ok tt, snd w)) by reflexivity. rewrite Ew.
        assert (Cw : calm_step s1 (snd w)) by (apply calm_write; auto).
        unfold kk. unfold bind at 1, read at 1. unfold bind at 1.
        match goal with |- fine s (snd (match ?c (snd w) with _ => _ end)) => assert (Hc : still c) by (destruct (is_some _); still) end.
        pose proof (calm_trans _ _ _ Cw (Hc (snd w))) as C2.
        assert (f3 : fine s (snd ((if is_some (top (mods (snd w) p)) then o <- read root p;; assert (is_root p o);;; write p (settle Resolved) else ret tt) (snd w)))).
        { eapply fine_trans; [exact f1|]. apply calm_fine; [apply f1|exact C2]. }
        pose proof (calm_V _ _ _ C2 f2) as V3.
        match type of Hc with still ?c => destruct (c (snd w)) as [[u'|e| |] s3] end; cbn [snd] in *; auto.
        eapply fine_trans; [exact f3|]. apply IH; [apply f3|assumption].
      * unfold bind at 1. pose proof (rejected_still f e p s1) as C2.
        assert (f3 : fine s (snd (rejected f e p s1))).
        { eapply fine_trans; [exact f1|]. apply calm_fine; [apply f1|exact C2]. }
        pose proof (calm_V _ _ _ C2 f2) as V3.
        destruct (rejected f e p s1) as [[u'|e'| |] s3]; cbn [snd] in *; auto.
        eapply fine_trans; [exact f3|]. apply IH; [apply f3|assumption].
Qed.

Lemma insert_perm s x l : Permutation (x :: l) (insert s x l).
Proof.
  induction l as [|y l IH]; cbn [insert]; [apply Permutation_refl|].
  destruct (Nat.leb _ _); [apply Permutation_refl|]. eapply perm_trans; [apply perm_swap|]. now constructor.
Qed.
Lemma sort_perm s l : Permutation l (fold_right (insert s) [] l).
Proof.
  induction l as [|x l IH]; cbn [fold_right]; [constructor|].
  eapply perm_trans; [apply perm_skip, IH|apply insert_perm].
Qed.

Lemma V_perm s a b : Permutation a b -> V s a -> V s b.
Proof.
  intros P [v1 v2]. split; [eapply Permutation_NoDup; eassumption|]. intros x Hx. apply v2.
  eapply Permutation_in; [apply Permutation_sym, P|assumption].
Qed.

Lemma iter_fine (c : nat -> M unit) : (forall x s, I s -> fine s (snd (c x s))) ->
  forall l s, I s -> fine s (snd (iter c l s)).
Proof.
  intros H. induction l as [|x l IH]; intros s HI; cbn [iter]; [split; [apply W_refl|assumption]|].
  pose proof (H x s HI) as h. unfold bind. destruct (c x s) as [[u|e| |] s1]; cbn [snd] in *; auto.
  eapply fine_trans; [exact h|]. apply IH, h.
Qed.

Lemma execute_valid_fine f : forall m s, I s -> fine s (snd (execute_valid G f m s)).
Proof.
  induction f as [|f IH]; intros m s HI; cbn [execute_valid]; [split; [apply W_refl|assumption]|].
  assert (HV0 : V s []) by (split; [constructor|intros x []]).
  pose proof (gather_found (S f) m ([], []) s HI HV0) as H. unfold bind at 1.
  destruct (gather G (S f) m ([], []) s) as [[[vec hash]|e| |] s1]; destruct H as ([h1 _] & h2 & h3); cbn [fst snd] in *;
    try (split; assumption).
  unfold bind at 1, sort. cbv beta iota. unfold bind at 1.
  pose proof (execute_each_fine (S f) (fold_right (insert s1) [] vec) [] s1 h2 (V_perm _ _ _ (sort_perm s1 vec) h3)) as h4.
  assert (h5 : fine s (snd (execute_each G (S f) (fold_right (insert s1) [] vec) [] s1)))
    by (eapply fine_trans; [split; [exact h1|exact h2]|exact h4]).
  destruct (execute_each G (S f) _ _ s1) as [[dn|e| |] s2]; cbn [snd] in *; auto.
  eapply fine_trans; [exact h5|]. apply iter_fine; [assumption|apply h5].
Qed.

Lemma fulfilled_fine f m s : I s -> fine s (snd (fulfilled G f m s)).
Proof.
  intros HI. unfold fulfilled, bind at 1, read at 1. destruct (status_eqb (stat (mods s m)) Evaluated) eqn:Es.
  - apply calm_fine; [assumption|]. revert s HI Es. assert (still (e <- read err m ;; assert (is_some e))) by still. intros s _ _. apply H.
  - assert (Hn : stat (mods s m) <> Evaluated) by (intros h; rewrite h in Es; discriminate).
    set (k := fun _ : unit => _). unfold bind at 1. set (w := write m (set_aeval 0) s).
    assert (Ew : w = (Ok tt, snd w)) by reflexivity. rewrite Ew. unfold k. clear k.
    set (k := fun _ : unit => _). unfold bind at 1. set (w2 := write m (set_stat Evaluated) (snd w)).
    assert (Ew2 : w2 = (Ok tt, snd w2)) by reflexivity. rewrite Ew2. unfold k. clear k.
    assert (C : calm_step s (snd w2)).
    { apply calm_trans with (snd w); [apply calm_write; auto|]. apply calm_write; auto. cbn. rewrite Nat.eqb_refl. exact Hn. }
    unfold bind at 1, read at 1, bind at 1.
    match goal with |- fine s (snd (match ?c (snd w2) with _ => _ end)) => assert (Hc : still c) by (destruct (is_some _); still) end.
    pose proof (calm_trans _ _ _ C (Hc (snd w2))) as C2. pose proof (calm_fine _ _ HI C2) as f3.
    match type of Hc with still ?c => destruct (c (snd w2)) as [[u'|e| |] s3] end; cbn [snd] in *; auto.
    eapply fine_trans; [exact f3|]. apply execute_valid_fine, f3.
Qed.

Lemma done_fine f m r s : I s -> fine s (snd (done G f m r s)).
Proof.
  intros HI. unfold done, bind at 1, read at 1. destruct (negb _); [split; [apply W_refl|assumption]|].
  unfold bind at 1. set (w := write m (set_live false) s). assert (Ew : w = (Ok tt, snd w)) by reflexivity. rewrite Ew.
  assert (C : calm_step s (snd w)).
  { split; [split; [|reflexivity]|].
    - apply W_same. intros x. cbn. destruct (Nat.eqb_spec x m) as [->|n]; auto.
    - intros x. cbn. destruct (Nat.eqb_spec x m) as [->|n]; reflexivity. }
  destruct r as [e|]; unfold bind, say; cbv beta iota; set (s1 := St _ _ _ _).
  all: assert (C1 : calm_step s s1) by (eapply calm_trans; [exact C|]; split; [split; [now apply W_same|reflexivity]|reflexivity]).
  all: pose proof (calm_fine _ _ HI C1) as f1; eapply fine_trans; [exact f1|].
  - apply calm_fine; [apply f1|apply rejected_still].
  - apply fulfilled_fine, f1.
Qed.

Lemma perform_fine f o s : I s -> fine s (snd (perform G f o s)).
Proof.
  intros HI. destruct o as [m|m|m r]; cbn [perform].
  - pose proof (link_T f m s) as t. split; [apply t|]. eapply T_I; eassumption.
  - pose proof (evaluate_T f m s) as t. unfold bind. destruct (evaluate G f m s) as [[u|e| |] s1]; cbn [ret snd] in *;
      (split; [apply t|]; eapply T_I; eassumption).
  - now apply done_fine.
Qed.

Theorem run_fine f : forall l s, I s -> fine s (snd (run G f l s)).
Proof.
  induction l as [|o l IH]; intros s HI; cbn [run]; [split; [apply W_refl|assumption]|].
  pose proof (perform_fine f o s HI) as h. destruct (perform G f o s) as [[u|e| |] s1]; cbn [snd] in *; auto.
  all: eapply fine_trans; [exact h|]; apply IH, h.
Qed.
End Graph.

Theorem start_I : I start.
Proof. split; [constructor|intros x []]. Qed.
